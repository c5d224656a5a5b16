From Verif Require Import Base BaseProofs DtypeModel QuantModel QuantProofs FcModel FcProofs FloatModel FloatProofs FloatQuant DistModel FloatDistModel.
From Coq Require Import Lqa Qpower Qminmax.
Open Scope Z_scope.

Definition rel (u x y : Q) : Prop := (Qabs (y - x) <= u * Qabs x)%Q.

Lemma rel_bounds u x y : (0 <= u)%Q -> rel u x y -> (Qabs y <= (1 + u) * Qabs x)%Q.
Proof.
  intros U H. unfold rel in H. setoid_replace y with ((y - x) + x)%Q by ring.
  eapply Qle_trans; [apply Qabs_triangle|]. lra.
Qed.

(** |a| <= b -> |a c| <= b d when |c| <= d *)
Lemma abs_mul_le a b c d : (Qabs a <= b)%Q -> (Qabs c <= d)%Q -> (Qabs (a * c) <= b * d)%Q.
Proof.
  intros A C. rewrite Qabs_Qmult. pose proof (Qabs_nonneg a). pose proof (Qabs_nonneg c).
  eapply Qle_trans; [apply Qmult_le_compat_r; [exact A|lra]|].
  rewrite !(Qmult_comm b). apply Qmult_le_compat_r; [exact C|lra].
Qed.

(** The zero point before rounding to an integer *)
Lemma zp_err u K eta a b M m A' B' D' C' r :
  (0 < u)%Q -> (u <= 1#16)%Q -> (0 < K)%Q -> (a <= 0)%Q -> (0 <= b)%Q -> (a < b)%Q ->
  (Qabs M <= K)%Q -> (Qabs m <= K)%Q -> (0 <= eta)%Q -> (eta <= u * K)%Q ->
  rel u (a * M) A' -> rel u (b * m) B' -> rel u (A' - B') D' -> rel u (a - b) C' ->
  (Qabs (r - D' / C') <= u * Qabs (D' / C') + eta)%Q ->
  (Qabs (r - (a * M - b * m) / (a - b)) <= 8 * (u * K))%Q.
Proof.
  intros U U1 HK Ha Hb Hab HM Hm E0 E1 RA RB RD RC RR. unfold rel in *.
  set (w := (b - a)%Q). assert (W : (0 < w)%Q) by (unfold w; lra).
  assert (WK : (0 < w * K)%Q) by (apply Qmult_lt_0_compat; assumption).
  assert (UWK : (0 < u * (w * K))%Q) by (apply Qmult_lt_0_compat; assumption).
  assert (UK : (0 < u * K)%Q) by (apply Qmult_lt_0_compat; assumption).
  assert (UW : (0 < u * w)%Q) by (apply Qmult_lt_0_compat; assumption).
  assert (PA : (Qabs (a * M) <= - a * K)%Q) by (apply abs_mul_le; [rewrite Qabs_neg by lra; lra|exact HM]).
  assert (PB : (Qabs (b * m) <= b * K)%Q) by (apply abs_mul_le; [rewrite Qabs_pos by lra; lra|exact Hm]).
  assert (S1 : (Qabs (a * M) + Qabs (b * m) <= w * K)%Q).
  { setoid_replace (w * K)%Q with (- a * K + b * K)%Q by (unfold w; ring). lra. }
  assert (S2 : (u * Qabs (a * M) + u * Qabs (b * m) <= u * (w * K))%Q).
  { setoid_replace (u * Qabs (a * M) + u * Qabs (b * m))%Q with ((Qabs (a * M) + Qabs (b * m)) * u)%Q by ring.
    rewrite (Qmult_comm u). apply Qmult_le_compat_r; [exact S1|lra]. }
  (* difference *)
  assert (D1 : (Qabs (A' - B' - (a * M - b * m)) <= u * (w * K))%Q).
  { setoid_replace (A' - B' - (a * M - b * m))%Q with ((A' - a * M) + - (B' - b * m))%Q by ring.
    eapply Qle_trans; [apply Qabs_triangle|]. rewrite Qabs_opp. lra. }
  assert (X0 : (Qabs (a * M - b * m) <= w * K)%Q).
  { unfold Qminus. eapply Qle_trans; [apply Qabs_triangle|]. rewrite Qabs_opp. lra. }
  assert (D2 : (Qabs (A' - B') <= w * K + u * (w * K))%Q).
  { setoid_replace (A' - B')%Q with ((A' - B' - (a * M - b * m)) + (a * M - b * m))%Q by ring.
    eapply Qle_trans; [apply Qabs_triangle|]. lra. }
  assert (D3 : (u * Qabs (A' - B') <= u * (w * K) + u * (u * (w * K)))%Q).
  { setoid_replace (u * (w * K) + u * (u * (w * K)))%Q with ((w * K + u * (w * K)) * u)%Q by ring.
    rewrite (Qmult_comm u (Qabs _)). apply Qmult_le_compat_r; [exact D2|lra]. }
  assert (UU : (u * (u * (w * K)) <= (1#16) * (u * (w * K)))%Q) by (apply Qmult_le_compat_r; lra).
  assert (D4 : (Qabs (D' - (a * M - b * m)) <= (17#8) * (u * (w * K)))%Q).
  { setoid_replace (D' - (a * M - b * m))%Q with ((D' - (A' - B')) + (A' - B' - (a * M - b * m)))%Q by ring.
    eapply Qle_trans; [apply Qabs_triangle|]. lra. }
  (* quotient *)
  assert (AW : (Qabs (a - b) == w)%Q) by (rewrite Qabs_neg by lra; unfold w; ring).
  rewrite AW in RC. apply Qabs_Qle_condition in RC as RC'.
  assert (U16 : (u * w <= (1#16) * w)%Q) by (apply Qmult_le_compat_r; lra).
  assert (C1 : ((15#16) * w <= - C')%Q) by (unfold w in *; lra).
  assert (CN : ~ (C' == 0)%Q) by lra.
  set (R := ((a * M - b * m) / (a - b))%Q).
  assert (RK : (Qabs R <= K)%Q).
  { unfold R. unfold Qdiv. rewrite Qabs_Qmult, Qabs_Qinv, AW. apply Qle_shift_div_r; [exact W|]. rewrite (Qmult_comm K). exact X0. }
  assert (Q1 : (Qabs (D' - R * C') <= (25#8) * (u * (w * K)))%Q).
  { setoid_replace (D' - R * C')%Q with ((D' - (a * M - b * m)) + R * - (C' - (a - b)))%Q by (unfold R; field; lra).
    eapply Qle_trans; [apply Qabs_triangle|].
    assert (Y : (Qabs (R * - (C' - (a - b))) <= K * (u * w))%Q) by (apply abs_mul_le; [exact RK|rewrite Qabs_opp; exact RC]).
    setoid_replace (K * (u * w))%Q with (u * (w * K))%Q in Y by ring. lra. }
  assert (Q2 : (Qabs (D' / C' - R) <= (10#3) * (u * K))%Q).
  { setoid_replace (D' / C' - R)%Q with ((D' - R * C') / C')%Q by (field; exact CN).
    unfold Qdiv. rewrite Qabs_Qmult, Qabs_Qinv. rewrite (Qabs_neg C') by lra.
    apply Qle_shift_div_r; [lra|]. eapply Qle_trans; [exact Q1|].
    setoid_replace ((25 # 8) * (u * (w * K)))%Q with ((10#3) * (u * K) * ((15#16) * w))%Q by ring.
    rewrite !(Qmult_comm ((10 # 3) * (u * K))). apply Qmult_le_compat_r; [exact C1|lra]. }
  assert (UK1 : (u * K <= (1#16) * K)%Q) by (apply Qmult_le_compat_r; lra).
  assert (Q3 : (Qabs (D' / C') <= 2 * K)%Q).
  { setoid_replace (D' / C')%Q with ((D' / C' - R) + R)%Q by ring. eapply Qle_trans; [apply Qabs_triangle|]. lra. }
  assert (Q4 : (u * Qabs (D' / C') <= 2 * (u * K))%Q).
  { setoid_replace (2 * (u * K))%Q with ((2 * K) * u)%Q by ring. rewrite (Qmult_comm u). apply Qmult_le_compat_r; [exact Q3|lra]. }
  setoid_replace (r - R)%Q with ((r - D' / C') + (D' / C' - R))%Q by ring.
  eapply Qle_trans; [apply Qabs_triangle|]. lra.
Qed.

(** scale: two roundings *)
Lemma scale_err u w N w' s' : (0 < u)%Q -> (u <= 1#16)%Q -> (0 < w)%Q -> (0 < N)%Q ->
  rel u w w' -> rel u (w' / N) s' -> (Qabs (s' - w / N) <= 3 * u * (w / N))%Q.
Proof.
  intros U U1 W HN R1 R2. unfold rel in *. rewrite (Qabs_pos w) in R1 by lra.
  assert (I0 : (0 < / N)%Q) by (apply Qinv_lt_0_compat, HN).
  assert (S0 : (0 < w / N)%Q) by (apply Qmult_lt_0_compat; assumption).
  assert (A : (Qabs (w' / N - w / N) <= u * (w / N))%Q).
  { setoid_replace (w' / N - w / N)%Q with ((w' - w) * / N)%Q by (field; lra).
    setoid_replace (u * (w / N))%Q with (u * w * / N)%Q by (field; lra). apply Qmult_abs_le; [exact R1|lra]. }
  assert (US : (0 < u * (w / N))%Q) by (apply Qmult_lt_0_compat; assumption).
  assert (B : (Qabs (w' / N) <= 2 * (w / N))%Q).
  { assert (X : (u * (w / N) <= (1#16) * (w / N))%Q) by (apply Qmult_le_compat_r; lra).
    apply Qabs_Qle_condition in A. apply Qabs_Qle_condition. split; lra. }
  assert (C : (u * Qabs (w' / N) <= 2 * (u * (w / N)))%Q).
  { setoid_replace (2 * (u * (w / N)))%Q with (2 * (w / N) * u)%Q by ring. rewrite (Qmult_comm u). apply Qmult_le_compat_r; [exact B|lra]. }
  setoid_replace (s' - w / N)%Q with ((s' - w' / N) + (w' / N - w / N))%Q by ring.
  eapply Qle_trans; [apply Qabs_triangle|].
  setoid_replace (3 * u * (w / N))%Q with (3 * (u * (w / N)))%Q by ring. lra.
Qed.

(** dividing by a perturbed scale *)
Lemma div_pert u s s' x B : (0 < u)%Q -> (u <= 1#16)%Q -> (0 < s)%Q -> (Qabs (s' - s) <= 3 * u * s)%Q ->
  (Qabs (x / s) <= B)%Q -> (0 < s')%Q /\ (Qabs (x / s' - x / s) <= 4 * (u * B))%Q.
Proof.
  intros U U1 S0 H HB. apply Qabs_Qle_condition in H as H'.
  assert (US : (u * s <= (1#16) * s)%Q) by (apply Qmult_le_compat_r; lra).
  assert (P : ((13#16) * s <= s')%Q).
  { setoid_replace (3 * u * s)%Q with (3 * (u * s))%Q in H' by ring. lra. }
  assert (P' : (0 < s')%Q) by lra. split; [exact P'|].
  setoid_replace (x / s' - x / s)%Q with (x / s * ((s - s') / s'))%Q by (field; split; lra).
  setoid_replace (4 * (u * B))%Q with (B * (4 * u))%Q by ring. apply abs_mul_le; [exact HB|].
  unfold Qdiv. rewrite Qabs_Qmult, Qabs_Qinv, (Qabs_pos s') by lra.
  setoid_replace (s - s')%Q with (- (s' - s))%Q by ring. rewrite Qabs_opp.
  apply Qle_shift_div_r; [exact P'|]. eapply Qle_trans; [exact H|].
  assert (UP : (u * ((13#16) * s) <= u * s')%Q) by (rewrite !(Qmult_comm u); apply Qmult_le_compat_r; lra).
  setoid_replace (3 * u * s)%Q with (3 * (u * s))%Q by ring.
  setoid_replace (4 * u * s')%Q with (4 * (u * s'))%Q by ring.
  setoid_replace (u * ((13 # 16) * s))%Q with ((13#16) * (u * s))%Q in UP by ring.
  assert (0 < u * s)%Q by (apply Qmult_lt_0_compat; assumption). lra.
Qed.

(** code error when the real code leaves the range by at most e *)
Lemma quantf1_code_err_e d zp s x k e : fits_i32 d -> dt_bound d zp k -> ~ (s == 0)%Q -> ((1#2) <= e)%Q -> (e <= 2)%Q ->
  (inject_Z (gmin d) - e <= x / s + inject_Z zp <= inject_Z (gmax d) + e)%Q ->
  (Qabs (inject_Z (quantf1 d zp (Fin s) (Fin x)) - (x / s + inject_Z zp)) <= e + pow2 (k - 49))%Q.
Proof.
  intros F B N HE HE2 [R1 R2]. pose proof B as (K & B1 & B2 & B3).
  rewrite Zle_Qle, inject_Z_opp, <- pow2_Z in B1 by lia. rewrite Zle_Qle, <- pow2_Z in B2 by lia.
  pose proof (abs_inject zp k ltac:(lia) B3) as ZB. apply Qabs_Qle_condition in ZB as [ZB1 ZB2].
  assert (K2 : (pow2 (k + 2) == 4 * pow2 k)%Q) by (rewrite pow2_plus; change (pow2 2) with 4%Q; ring).
  pose proof (pow2_ge1 k ltac:(lia)) as P.
  assert (L : (Qabs (x / s) <= pow2 (k + 2))%Q) by (apply Qabs_Qle_condition; split; lra).
  pose proof (pre_floor_err zp s x _ k half01 K B3 L) as E. apply Qabs_Qle_condition in E.
  rewrite quantf1_real; [|exact F|exact (dt_bound_zp _ _ _ B)|exact N].
  destruct F as (_ & F2 & _). destruct (Qfloor_bounds (pre_floor zp s x)) as [G1 G2].
  set (f := Qfloor (pre_floor zp s x)) in *. pose proof (pow2_pos (k - 49)).
  apply Qabs_Qle_condition.
  assert (C : (clipZ (gmin d) (gmax d) f = f \/ (clipZ (gmin d) (gmax d) f = gmin d /\ f <= gmin d)
      \/ (clipZ (gmin d) (gmax d) f = gmax d /\ gmax d <= f))) by (unfold clipZ; lia).
  destruct C as [->|[[-> C]|[-> C]]]; [split; lra| |]; rewrite Zle_Qle in C; split; lra.
Qed.
Lemma quantf1_real_err_e d zp s x k e : fits_i32 d -> zp_nowrap d zp -> dt_bound d zp k -> rep64 s -> (0 < s)%Q ->
  (s <= pow2 (1022 - k))%Q -> ((1#2) <= e)%Q -> (e <= 2)%Q ->
  (inject_Z (gmin d) - e <= x / s + inject_Z zp <= inject_Z (gmax d) + e)%Q ->
  exists y, dequantf1 zp (Fin s) (quantf1 d zp (Fin s) (Fin x)) = Fin y /\
    (Qabs (x - y) <= s * (e + pow2 (k - 48)))%Q.
Proof.
  intros F W B R S0 S1 HE HE2 X. pose proof (quantf1_code_err_e d zp s x k e F B ltac:(lra) HE ltac:(lra) X) as E.
  set (q := quantf1 d zp (Fin s) (Fin x)) in *.
  assert (D : in_dt d q).
  { unfold q. rewrite quantf1_real; [|exact F|exact (dt_bound_zp _ _ _ B)|lra]. apply clipZ_range. apply F. }
  exists (fl64 (inject_Z (q - zp) * s)). split; [now apply (dequantf1_fin d zp s q k)|].
  pose proof (deq_quot d zp s q k B D R S0) as G.
  set (y := fl64 (inject_Z (q - zp) * s)) in *. clearbody y. rewrite inject_Z_minus in G.
  setoid_replace (x - y)%Q with ((x / s - y / s) * s)%Q by (field; lra).
  rewrite (Qmult_comm s). apply Qmult_abs_le; [|lra].
  assert (D3 : (pow2 (k - 48) == 2 * pow2 (k - 49))%Q) by (replace (k - 48) with (k - 49 + 1) by lia; apply pow2_S).
  assert (M : (pow2 (k - 52) <= pow2 (k - 49))%Q) by (apply pow2_mono; lia).
  apply Qabs_Qle_condition in E. apply Qabs_Qle_condition in G. apply Qabs_Qle_condition. split; lra.
Qed.

Lemma rep_weaken p e p' e' x : 1 <= p <= p' -> e' <= e -> rep p e x -> rep p' e' x.
Proof.
  intros P E (m & n & A & B & C). exists m, n. split; [|split; [lia|exact C]].
  pose proof (Z.pow_le_mono_r 2 p p'). lia.
Qed.

Definition sane (p : Z) (f : fmt) : Prop :=
  6 <= p <= f_p f /\ f_p f <= 53 /\ -1074 <= f_emin f /\ f_emin f <= - f_p f.
Definition repf (f : fmt) (x : Q) : Prop := rep (f_p f) (f_emin f) x.

Lemma flf_rel p f x : sane p f -> on_grid (f_emin f) x -> rel (pow2 (- p)) x (flf f x).
Proof.
  intros (P & _) G. unfold rel, flf. eapply Qle_trans; [apply (fl_rel_grid (f_p f) (f_emin f) ltac:(lia) x G)|].
  rewrite (Qmult_comm (pow2 (- p))), !(Qmult_comm (Qabs x)). apply Qmult_le_compat_r; [apply pow2_mono; lia|apply Qabs_nonneg].
Qed.
Lemma flf_rel_normal p f x : sane p f -> (pow2 (f_emin f + f_p f - 1) <= Qabs x)%Q -> rel (pow2 (- p)) x (flf f x).
Proof.
  intros (P & _) G. unfold rel, flf. eapply Qle_trans; [apply (fl_rel_normal _ _ x G)|].
  rewrite (Qmult_comm (pow2 (- p))), !(Qmult_comm (Qabs x)). apply Qmult_le_compat_r; [apply pow2_mono; lia|apply Qabs_nonneg].
Qed.
Lemma flf_err p f x : sane p f -> (Qabs (flf f x - x) <= pow2 (- p) * Qabs x + pow2 (f_emin f - 1))%Q.
Proof.
  intros (P & _). unfold flf. eapply Qle_trans; [apply (fl_err (f_p f) (f_emin f) ltac:(lia) x)|].
  apply Qplus_le_compat; [|apply Qle_refl]. rewrite !(Qmult_comm (Qabs x)).
  apply Qmult_le_compat_r; [apply pow2_mono; lia|apply Qabs_nonneg].
Qed.
Lemma flf_rep p f x : sane p f -> repf f (flf f x).
Proof. intros (P & _). apply rep_fl. lia. Qed.

Lemma Qmin0_cases x : (Qmin x 0 == x \/ Qmin x 0 == 0)%Q.
Proof. destruct (Q.min_spec x 0) as [[_ E]|[_ E]]; rewrite E; auto; [left|right]; reflexivity. Qed.
Lemma Qmax0_cases x : (Qmax x 0 == x \/ Qmax x 0 == 0)%Q.
Proof. destruct (Q.max_spec x 0) as [[_ E]|[_ E]]; rewrite E; [right|left]; reflexivity. Qed.
Lemma repf_min p f x : sane p f -> repf f x -> repf f (Qmin x 0).
Proof.
  intros (P & _) R. destruct (Qmin0_cases x) as [E|E]; symmetry in E; [exact (rep_comp _ _ _ _ E R)|].
  apply (rep_comp _ _ _ _ E). apply rep_0. lia.
Qed.
Lemma repf_max p f x : sane p f -> repf f x -> repf f (Qmax x 0).
Proof.
  intros (P & _) R. destruct (Qmax0_cases x) as [E|E]; symmetry in E; [exact (rep_comp _ _ _ _ E R)|].
  apply (rep_comp _ _ _ _ E). apply rep_0. lia.
Qed.

Lemma pow2_u p : 6 <= p -> (0 < pow2 (- p))%Q /\ (pow2 (- p) <= 1#16)%Q.
Proof. intros H. split; [apply pow2_pos|]. change (1#16)%Q with (pow2 (-4)). apply pow2_mono. lia. Qed.

Lemma dist_f_params f1 f2 p k mn mx q sym :
  sane p f1 -> sane p f2 -> 0 <= k -> k + 6 <= p ->
  repf f1 mn -> repf f2 mn -> repf f1 mx -> repf f2 mx ->
  let a := Qmin mn 0 in let b := Qmax mx 0 in
  let M := gmax q in let m := if sym : bool then - gmax q else gmin q in
  m < M -> - 2 ^ k <= m -> M <= 2 ^ k -> (a < b)%Q ->
  (pow2 (f_emin f2 + f_p f2 + k + 1) <= b - a)%Q ->
  exists s z, dist_quantize_f f1 f2 mn mx q None None sym = Ok (s, z) /\ (0 < s)%Q /\ repf f2 s /\ m <= z <= M /\
    let s0 := ((b - a) / inject_Z (M - m))%Q in
    (Qabs (s - s0) <= 3 * pow2 (- p) * s0)%Q /\
    (Qabs (inject_Z z - (inject_Z m - a / s0)) <= (1#2) + pow2 (k + 3 - p))%Q /\
    (Qabs (inject_Z z - (inject_Z M - b / s0)) <= (1#2) + pow2 (k + 3 - p))%Q /\
    s = flf f2 (flf f1 (b - a) / inject_Z (M - m)) /\
    z = Qround_even (flf f2 (flf f2 (flf f2 (a * inject_Z M) - flf f2 (b * inject_Z m)) / flf f1 (a - b))).
Proof.
  intros F1 F2 K0 KP Ra1 Ra2 Rb1 Rb2 a b M m LM BM1 BM2 Hab HN.
  assert (A0 : (a <= 0)%Q) by (apply Q.le_min_r). assert (B0 : (0 <= b)%Q) by (apply Q.le_max_r).
  assert (GA1 : on_grid (f_emin f1) a) by (apply (rep_on_grid (f_p f1)); exact (repf_min p f1 mn F1 Ra1)).
  assert (GA2 : on_grid (f_emin f2) a) by (apply (rep_on_grid (f_p f2)); exact (repf_min p f2 mn F2 Ra2)).
  assert (GB1 : on_grid (f_emin f1) b) by (apply (rep_on_grid (f_p f1)); exact (repf_max p f1 mx F1 Rb1)).
  assert (GB2 : on_grid (f_emin f2) b) by (apply (rep_on_grid (f_p f2)); exact (repf_max p f2 mx F2 Rb2)).
  assert (P6 : 6 <= p) by apply F1. destruct (pow2_u p P6) as [U0 U1]. set (u := pow2 (- p)) in *.
  set (K := pow2 k). assert (HK : (0 < K)%Q) by apply pow2_pos.
  assert (UK : (8 * (u * K) == pow2 (k + 3 - p))%Q).
  { unfold u, K. replace (k + 3 - p) with (3 + (- p + k)) by lia. rewrite !pow2_plus. change (pow2 3) with 8%Q. ring. }
  assert (UK8 : (pow2 (k + 3 - p) <= 1#8)%Q) by (change (1#8)%Q with (pow2 (-3)); apply pow2_mono; lia).
  assert (HMK : (Qabs (inject_Z M) <= K)%Q) by (apply abs_inject; lia).
  assert (HmK : (Qabs (inject_Z m) <= K)%Q) by (apply abs_inject; lia).
  assert (gopp : forall e x, on_grid e x -> on_grid e (- x)).
  { intros e x G. apply (grid_mulZ e (-1)) in G. destruct G as (n & G). exists n. rewrite <- G. change (inject_Z (-1)) with (-1)%Q. ring. }
  (* the four roundings of the zero point *)
  assert (RA : rel u (a * inject_Z M) (flf f2 (a * inject_Z M))).
  { apply flf_rel; [exact F2|]. destruct (grid_mulZ (f_emin f2) M a GA2) as (n & G). exists n. rewrite <- G. ring. }
  assert (RB : rel u (b * inject_Z m) (flf f2 (b * inject_Z m))).
  { apply flf_rel; [exact F2|]. destruct (grid_mulZ (f_emin f2) m b GB2) as (n & G). exists n. rewrite <- G. ring. }
  set (A' := flf f2 (a * inject_Z M)) in *. set (B' := flf f2 (b * inject_Z m)) in *.
  assert (RD : rel u (A' - B') (flf f2 (A' - B'))).
  { apply flf_rel; [exact F2|]. apply grid_plus; [|apply gopp]; apply (rep_on_grid (f_p f2)); apply (flf_rep p); exact F2. }
  assert (RC : rel u (a - b) (flf f1 (a - b))) by (apply flf_rel; [exact F1|]; apply grid_plus; [exact GA1|apply gopp; exact GB1]).
  set (D' := flf f2 (A' - B')) in *. set (C' := flf f1 (a - b)) in *.
  assert (ETA : (pow2 (f_emin f2 - 1) <= u * K)%Q).
  { unfold u, K. rewrite <- pow2_plus. apply pow2_mono. destruct F2 as (? & ? & ? & ?). lia. }
  pose proof (zp_err u K (pow2 (f_emin f2 - 1)) a b (inject_Z M) (inject_Z m) A' B' D' C' (flf f2 (D' / C'))
    U0 U1 HK A0 B0 Hab HMK HmK (Qlt_le_weak _ _ (pow2_pos _)) ETA RA RB RD RC (flf_err p f2 _ F2)) as ZE.
  rewrite UK in ZE.
  (* the scale *)
  set (N := inject_Z (M - m)).
  assert (N1 : (1 <= N)%Q) by (unfold N; change 1%Q with (inject_Z 1); rewrite <- Zle_Qle; lia).
  assert (N2 : (N <= 2 * K)%Q).
  { unfold N, K. rewrite pow2_Z by lia. change 2%Q with (inject_Z 2). rewrite <- inject_Z_mult, <- Zle_Qle. lia. }
  set (w := (b - a)%Q) in *. assert (W : (0 < w)%Q) by (unfold w; lra).
  assert (RW : rel u w (flf f1 w)) by (apply flf_rel; [exact F1|]; apply grid_plus; [exact GB1|apply gopp; exact GA1]).
  set (w' := flf f1 w) in *.
  assert (W' : ((15#16) * w <= w')%Q).
  { unfold rel in RW. rewrite (Qabs_pos w) in RW by lra. apply Qabs_Qle_condition in RW.
    assert (u * w <= (1#16) * w)%Q by (apply Qmult_le_compat_r; lra). lra. }
  assert (NORM : (pow2 (f_emin f2 + f_p f2 - 1) <= Qabs (w' / N))%Q).
  { assert (X : (pow2 (f_emin f2 + f_p f2 - 1) <= w' / N)%Q).
    { apply Qle_shift_div_l; [lra|]. eapply Qle_trans with (pow2 (f_emin f2 + f_p f2 - 1) * (2 * K))%Q.
      - rewrite !(Qmult_comm (pow2 (f_emin f2 + f_p f2 - 1))). apply Qmult_le_compat_r; [exact N2|apply Qlt_le_weak, pow2_pos].
      - replace (f_emin f2 + f_p f2 + k + 1) with ((f_emin f2 + f_p f2 - 1) + (k + 2)) in HN by lia.
        rewrite (pow2_plus (f_emin f2 + f_p f2 - 1)) in HN. rewrite (pow2_plus k 2) in HN. change (pow2 2) with 4%Q in HN. fold K in HN.
        setoid_replace (pow2 (f_emin f2 + f_p f2 - 1) * (2 * K))%Q with ((pow2 (f_emin f2 + f_p f2 - 1) * (K * 4)) * (1#2))%Q by ring.
        eapply Qle_trans; [apply Qmult_le_compat_r; [exact HN|lra]|]. lra. }
    eapply Qle_trans; [exact X|]. apply Qle_Qabs. }
  pose proof (flf_rel_normal p f2 (w' / N) F2 NORM) as RS. fold u in RS.
  pose proof (scale_err u w N w' (flf f2 (w' / N)) U0 U1 W ltac:(lra) RW RS) as SE.
  set (s := flf f2 (w' / N)) in *.
  assert (S00 : (0 < w / N)%Q) by (apply Qlt_shift_div_l; lra).
  assert (SP : (0 < s)%Q).
  { apply Qabs_Qle_condition in SE. setoid_replace (3 * u * (w / N))%Q with (3 * (u * (w / N)))%Q in SE by ring.
    assert (u * (w / N) <= (1#16) * (w / N))%Q by (apply Qmult_le_compat_r; lra). lra. }
  set (r := flf f2 (D' / C')) in *.
  (* the exact zero point *)
  set (R := ((a * inject_Z M - b * inject_Z m) / (a - b))%Q) in *.
  assert (NM : (N == inject_Z M - inject_Z m)%Q) by (unfold N; rewrite inject_Z_minus; reflexivity).
  assert (R1 : (R == inject_Z m - a / (w / N))%Q).
  { unfold R, w. rewrite NM. field. repeat split; lra. }
  assert (R2 : (R == inject_Z M - b / (w / N))%Q).
  { unfold R, w. rewrite NM. field. repeat split; lra. }
  assert (RL : (inject_Z m <= R)%Q).
  { rewrite R1. assert (a / (w / N) <= 0)%Q; [|lra]. apply Qle_shift_div_r; [exact S00|lra]. }
  assert (RH : (R <= inject_Z M)%Q).
  { rewrite R2. assert (0 <= b / (w / N))%Q; [|lra]. apply Qle_shift_div_l; [exact S00|lra]. }
  assert (CNZ : Qeq_bool C' 0 = false).
  { apply not_true_iff_false. rewrite Qeq_bool_iff. intros E. unfold rel in RC. rewrite E in RC.
    rewrite (Qabs_neg (a - b)) in RC by lra. apply Qabs_Qle_condition in RC.
    setoid_replace (u * - (a - b))%Q with (u * w)%Q in RC by (unfold w; ring).
    assert (u * w <= (1#16) * w)%Q by (apply Qmult_le_compat_r; lra). unfold w in *. lra. }
  exists s, (Qround_even r).
  split; [|split; [exact SP|split; [apply (flf_rep p), F2|]]].
  - unfold dist_quantize_f. cbv zeta. change (if sym then - gmax q else gmin q) with m.
    change (gmax q) with M. fold a b w. fold w'. fold N. fold s. fold A'. fold B'. fold D'. fold C'. fold r.
    destruct (Z.eqb_spec (M - m) 0) as [X|_]; [lia|].
    rewrite CNZ. cbn [rbind].
    assert (SN : Qeq_bool s 0 = false) by (apply not_true_iff_false; rewrite Qeq_bool_iff; lra).
    rewrite SN. reflexivity.
  - pose proof (Qround_even_near r) as RN. apply Qabs_Qle_condition in RN. apply Qabs_Qle_condition in ZE.
    split; [|split; [exact SE|]].
    + assert (X1 : (inject_Z (m - 1) < inject_Z (Qround_even r))%Q) by (rewrite inject_Z_minus; change (inject_Z 1) with 1%Q; lra).
      assert (X2 : (inject_Z (Qround_even r) < inject_Z (M + 1))%Q) by (rewrite inject_Z_plus; change (inject_Z 1) with 1%Q; lra).
      rewrite <- Zlt_Qlt in X1, X2. lia.
    + rewrite <- R1, <- R2. split; [|split; [|split; reflexivity]]; apply Qabs_Qle_condition; split; lra.
Qed.

Lemma dist_f_error f1 f2 p k mn mx q sym :
  sane p f1 -> sane p f2 -> 0 <= k <= 31 -> k + 6 <= p ->
  repf f1 mn -> repf f2 mn -> repf f1 mx -> repf f2 mx ->
  let a := Qmin mn 0 in let b := Qmax mx 0 in
  let M := gmax q in let m := if sym : bool then - gmax q else gmin q in
  fits_i32 q -> gmax q - gmin q <= 2 ^ 31 - 1 ->
  m < M -> gmin q <= m -> - 2 ^ k <= gmin q -> M <= 2 ^ k -> (a < b)%Q ->
  (pow2 (f_emin f2 + f_p f2 + k + 1) <= b - a)%Q -> (b - a <= pow2 (1021 - k))%Q ->
  exists s z, dist_quantize_f f1 f2 mn mx q None None sym = Ok (s, z) /\ (0 < s)%Q /\ rep64 s /\ m <= z <= M /\
    (s <= pow2 (1022 - k))%Q /\
    forall x, (a <= x <= b)%Q -> exists y, dequantf1 z (Fin s) (quantf1 q z (Fin s) (Fin x)) = Fin y /\
      (Qabs (x - y) <= s * ((1#2) + pow2 (k + 4 - p) + pow2 (k - 48)))%Q.
Proof.
  intros F1 F2 K0 KP Ra1 Ra2 Rb1 Rb2 a b M m FI WD LM Gm BM1 BM2 Hab HN HO.
  destruct (dist_f_params f1 f2 p k mn mx q sym F1 F2 ltac:(lia) KP Ra1 Ra2 Rb1 Rb2 LM ltac:(fold m; lia) BM2 Hab HN)
    as (s & z & E & SP & RS & HZ & SE & Z1 & Z2 & _).
  cbv zeta in SE, Z1, Z2. fold m in HZ, SE, Z1, Z2. fold M in HZ, SE, Z1, Z2. fold a in SE, Z1, Z2. fold b in SE, Z1, Z2.
  exists s, z. split; [exact E|]. split; [exact SP|].
  assert (R64 : rep64 s).
  { destruct F2 as (? & ? & ? & ?). apply (rep_weaken (f_p f2) (f_emin f2)); [lia|lia|exact RS]. }
  split; [exact R64|]. split; [exact HZ|].
  destruct (pow2_u p ltac:(apply F1)) as [U0 U1]. set (u := pow2 (- p)) in *.
  set (N := inject_Z (M - m)) in *. set (s0 := ((b - a) / N)%Q) in *.
  assert (N1 : (1 <= N)%Q) by (unfold N; change 1%Q with (inject_Z 1); rewrite <- Zle_Qle; lia).
  assert (S00 : (0 < s0)%Q) by (unfold s0; apply Qlt_shift_div_l; lra).
  assert (SB : (s <= pow2 (1022 - k))%Q).
  { apply Qabs_Qle_condition in SE. setoid_replace (3 * u * s0)%Q with (3 * (u * s0))%Q in SE by ring.
    assert (u * s0 <= (1#16) * s0)%Q by (apply Qmult_le_compat_r; lra).
    assert (S0W : (s0 <= b - a)%Q).
    { unfold s0. apply Qle_shift_div_r; [lra|]. setoid_replace (b - a)%Q with ((b - a) * 1)%Q at 1 by ring.
      rewrite !(Qmult_comm (b - a)). apply Qmult_le_compat_r; lra. }
    replace (1022 - k) with (1021 - k + 1) by lia. rewrite pow2_S. lra. }
  split; [exact SB|].
  intros x [X1 X2].
  set (K := pow2 k). 
  assert (NK : (N <= 2 * K)%Q).
  { unfold N, K. rewrite pow2_Z by lia. change 2%Q with (inject_Z 2). rewrite <- inject_Z_mult, <- Zle_Qle. lia. }
  assert (UK : (pow2 (k + 3 - p) == 8 * (u * K))%Q).
  { unfold u, K. replace (k + 3 - p) with (3 + (- p + k)) by lia. rewrite !pow2_plus. change (pow2 3) with 8%Q. ring. }
  assert (UK4 : (pow2 (k + 4 - p) == 16 * (u * K))%Q).
  { unfold u, K. replace (k + 4 - p) with (4 + (- p + k)) by lia. rewrite !pow2_plus. change (pow2 4) with 16%Q. ring. }
  assert (UK8 : (pow2 (k + 4 - p) <= 1#4)%Q) by (change (1#4)%Q with (pow2 (-2)); apply pow2_mono; lia).
  assert (A0 : (a <= 0)%Q) by (apply Q.le_min_r). assert (B0 : (0 <= b)%Q) by (apply Q.le_max_r).
  assert (I0 : (0 < / s0)%Q) by (apply Qinv_lt_0_compat, S00).
  assert (D1 : (a / s0 <= x / s0)%Q) by (apply Qmult_le_compat_r; lra).
  assert (D2 : (x / s0 <= b / s0)%Q) by (apply Qmult_le_compat_r; lra).
  assert (DW : ((b - a) / s0 == N)%Q) by (unfold s0; field; split; lra).
  assert (DW' : (b / s0 - a / s0 == N)%Q) by (rewrite <- DW; field; lra).
  assert (DA : (a / s0 <= 0)%Q) by (apply Qle_shift_div_r; lra).
  assert (DB : (0 <= b / s0)%Q) by (apply Qle_shift_div_l; lra).
  assert (XB : (Qabs (x / s0) <= 2 * K)%Q) by (apply Qabs_Qle_condition; split; lra).
  destruct (div_pert u s0 s x (2 * K) U0 U1 S00 SE XB) as [_ DP].
  setoid_replace (4 * (u * (2 * K)))%Q with (8 * (u * K))%Q in DP by ring.
  apply Qabs_Qle_condition in DP. apply Qabs_Qle_condition in Z1. apply Qabs_Qle_condition in Z2.
  assert (gm : (inject_Z (gmin q) <= inject_Z m)%Q) by (rewrite <- Zle_Qle; exact Gm).
  apply (quantf1_real_err_e q z s x k ((1#2) + pow2 (k + 4 - p))).
  - exact FI.
  - unfold zp_nowrap. destruct FI as (? & ? & ?). subst M. lia.
  - unfold dt_bound. subst M. lia.
  - exact R64.
  - exact SP.
  - exact SB.
  - pose proof (pow2_pos (k + 4 - p)). lra.
  - lra.
  - fold M. rewrite UK4. rewrite UK in Z1, Z2. split; lra.
Qed.

(** forced zero point *)
Lemma dist_f_forced f1 f2 p k mn mx q sym z :
  sane p f1 -> sane p f2 -> 0 <= k -> k + 6 <= p ->
  repf f1 mn -> repf f2 mn -> repf f1 mx -> repf f2 mx ->
  let a := Qmin mn 0 in let b := Qmax mx 0 in
  let M := gmax q in let m := if sym : bool then - gmax q else gmin q in
  let D := if sym then gmax q else Z.abs (gmin q) in
  m < M -> 0 < D <= 2 ^ k -> (a < b)%Q ->
  (pow2 (f_emin f2 + f_p f2 + k) <= Qmax (Qabs a) (Qabs b))%Q ->
  exists s, dist_quantize_f f1 f2 mn mx q (Some z) None sym = Ok (s, z) /\ (0 < s)%Q /\ repf f2 s /\
    let s0 := (Qmax (Qabs a) (Qabs b) / inject_Z D)%Q in
    (Qabs (s - s0) <= pow2 (- p) * s0)%Q.
Proof.
  intros F1 F2 K0 KP Ra1 Ra2 Rb1 Rb2 a b M m D LM HD Hab HN.
  assert (A0 : (a <= 0)%Q) by (apply Q.le_min_r). assert (B0 : (0 <= b)%Q) by (apply Q.le_max_r).
  assert (GA1 : on_grid (f_emin f1) a) by (apply (rep_on_grid (f_p f1)); exact (repf_min p f1 mn F1 Ra1)).
  assert (GB1 : on_grid (f_emin f1) b) by (apply (rep_on_grid (f_p f1)); exact (repf_max p f1 mx F1 Rb1)).
  assert (P6 : 6 <= p) by apply F1. destruct (pow2_u p P6) as [U0 U1]. set (u := pow2 (- p)) in *.
  assert (gopp : forall e x, on_grid e x -> on_grid e (- x)).
  { intros e x G. apply (grid_mulZ e (-1)) in G. destruct G as (n & G). exists n. rewrite <- G. change (inject_Z (-1)) with (-1)%Q. ring. }
  assert (RC : rel u (a - b) (flf f1 (a - b))) by (apply flf_rel; [exact F1|]; apply grid_plus; [exact GA1|apply gopp; exact GB1]).
  set (C' := flf f1 (a - b)) in *.
  assert (CNZ : Qeq_bool C' 0 = false).
  { apply not_true_iff_false. rewrite Qeq_bool_iff. intros E. unfold rel in RC. rewrite E in RC.
    rewrite (Qabs_neg (a - b)) in RC by lra. apply Qabs_Qle_condition in RC.
    assert (u * - (a - b) <= (1#16) * - (a - b))%Q by (apply Qmult_le_compat_r; lra). lra. }
  set (W := Qmax (Qabs a) (Qabs b)) in *.
  pose proof (pow2_pos (f_emin f2 + f_p f2 + k)) as PP.
  assert (D1 : (1 <= inject_Z D)%Q) by (change 1%Q with (inject_Z 1); rewrite <- Zle_Qle; lia).
  assert (D2 : (inject_Z D <= pow2 k)%Q) by (rewrite pow2_Z by lia; rewrite <- Zle_Qle; lia).
  assert (S00 : (0 < W / inject_Z D)%Q) by (apply Qlt_shift_div_l; lra).
  assert (NORM : (pow2 (f_emin f2 + f_p f2 - 1) <= Qabs (W / inject_Z D))%Q).
  { rewrite Qabs_pos by lra. apply Qle_shift_div_l; [lra|].
    rewrite (pow2_plus (f_emin f2 + f_p f2)) in HN. eapply Qle_trans; [|exact HN].
    eapply Qle_trans; [apply Qmult_le_compat_r; [apply pow2_mono with (b := f_emin f2 + f_p f2); lia|lra]|].
    rewrite !(Qmult_comm (pow2 (f_emin f2 + f_p f2))). apply Qmult_le_compat_r; [exact D2|apply Qlt_le_weak, pow2_pos]. }
  pose proof (flf_rel_normal p f2 _ F2 NORM) as RS. fold u in RS. unfold rel in RS.
  rewrite (Qabs_pos (W / inject_Z D)) in RS by lra.
  set (s := flf f2 (W / inject_Z D)) in *.
  assert (SP : (0 < s)%Q).
  { apply Qabs_Qle_condition in RS.
    assert (u * (W / inject_Z D) <= (1#16) * (W / inject_Z D))%Q by (apply Qmult_le_compat_r; lra). lra. }
  exists s. split; [|split; [exact SP|split; [apply (flf_rep p), F2|exact RS]]].
  unfold dist_quantize_f. cbv zeta. fold a. fold b. fold W. fold C'.
  change (if sym then - gmax q else gmin q) with m. change (gmax q - m) with (M - m).
  destruct (Z.eqb_spec (M - m) 0) as [X|_]; [lia|]. rewrite CNZ.
  assert (ED : (if sym then gmax q else Z.abs m) = D) by (unfold D, m; destruct sym; reflexivity).
  rewrite ED. destruct (Z.eqb_spec D 0) as [X|_]; [lia|]. cbn [rbind]. fold s.
  assert (SN : Qeq_bool s 0 = false) by (apply not_true_iff_false; rewrite Qeq_bool_iff; lra).
  rewrite SN. reflexivity.
Qed.

Lemma dist_f_forced_error f1 f2 p k mn mx q sym e :
  sane p f1 -> sane p f2 -> 0 <= k <= 31 -> k + 6 <= p ->
  repf f1 mn -> repf f2 mn -> repf f1 mx -> repf f2 mx ->
  let a := Qmin mn 0 in let b := Qmax mx 0 in
  let M := gmax q in let m := if sym : bool then - gmax q else gmin q in
  let D := if sym then gmax q else Z.abs (gmin q) in
  fits_i32 q -> in_dt q 0 ->
  m < M -> 0 < D <= 2 ^ k -> - 2 ^ k <= gmin q -> M <= 2 ^ k -> (a < b)%Q ->
  ((1#2) <= e)%Q -> (e <= 2)%Q ->
  (inject_Z D + pow2 (k + 1 - p) <= inject_Z M + e)%Q -> (inject_Z D + pow2 (k + 1 - p) <= - inject_Z (gmin q) + e)%Q ->
  (pow2 (f_emin f2 + f_p f2 + k) <= Qmax (Qabs a) (Qabs b))%Q -> (Qmax (Qabs a) (Qabs b) <= pow2 (1021 - k))%Q ->
  exists s, dist_quantize_f f1 f2 mn mx q (Some 0) None sym = Ok (s, 0) /\ (0 < s)%Q /\ rep64 s /\
    (s <= pow2 (1022 - k))%Q /\
    forall x, (a <= x <= b)%Q -> exists y, dequantf1 0 (Fin s) (quantf1 q 0 (Fin s) (Fin x)) = Fin y /\
      (Qabs (x - y) <= s * (e + pow2 (k - 48)))%Q.
Proof.
  intros F1 F2 K0 KP Ra1 Ra2 Rb1 Rb2 a b M m D FI Z0 LM HD BM1 BM2 Hab E1 E2 C1 C2 HN HO.
  destruct (dist_f_forced f1 f2 p k mn mx q sym 0 F1 F2 ltac:(lia) KP Ra1 Ra2 Rb1 Rb2 LM HD Hab HN) as (s & E & SP & RS & SE).
  cbv zeta in SE. fold D in SE. fold a in SE. fold b in SE.
  set (W := Qmax (Qabs a) (Qabs b)) in *.
  exists s. split; [exact E|]. split; [exact SP|].
  assert (R64 : rep64 s).
  { destruct F2 as (? & ? & ? & ?). apply (rep_weaken (f_p f2) (f_emin f2)); [lia|lia|exact RS]. }
  split; [exact R64|].
  destruct (pow2_u p ltac:(apply F1)) as [U0 U1]. set (u := pow2 (- p)) in *.
  pose proof (pow2_pos (f_emin f2 + f_p f2 + k)) as PP.
  assert (D1 : (1 <= inject_Z D)%Q) by (change 1%Q with (inject_Z 1); rewrite <- Zle_Qle; lia).
  assert (D2 : (inject_Z D <= pow2 k)%Q) by (rewrite pow2_Z by lia; rewrite <- Zle_Qle; lia).
  set (s0 := (W / inject_Z D)%Q) in *.
  assert (S00 : (0 < s0)%Q) by (unfold s0; apply Qlt_shift_div_l; lra).
  apply Qabs_Qle_condition in SE as SE'. 
  assert (US : (u * s0 <= (1#16) * s0)%Q) by (apply Qmult_le_compat_r; lra).
  assert (SB : (s <= pow2 (1022 - k))%Q).
  { assert (S0W : (s0 <= W)%Q).
    { unfold s0. apply Qle_shift_div_r; [lra|]. setoid_replace W with (W * 1)%Q at 1 by ring.
      rewrite !(Qmult_comm W). apply Qmult_le_compat_r; lra. }
    replace (1022 - k) with (1021 - k + 1) by lia. rewrite pow2_S. lra. }
  split; [exact SB|].
  intros x [X1 X2].
  assert (XW : (Qabs x <= W)%Q).
  { unfold W. pose proof (Q.le_max_l (Qabs a) (Qabs b)). pose proof (Q.le_max_r (Qabs a) (Qabs b)).
    pose proof (Qle_Qabs b). pose proof (Qle_Qabs (- a)) as HA. rewrite Qabs_opp in HA.
    apply Qabs_Qle_condition. split; lra. }
  assert (XS : (Qabs (x / s) <= inject_Z D + pow2 (k + 1 - p))%Q).
  { unfold Qdiv. rewrite Qabs_Qmult, Qabs_Qinv, (Qabs_pos s) by lra. apply Qle_shift_div_r; [exact SP|].
    eapply Qle_trans; [exact XW|].
    assert (WE : (W == inject_Z D * s0)%Q) by (unfold s0; field; lra). rewrite WE.
    assert (UB : (pow2 (k + 1 - p) == 2 * (pow2 k * u))%Q).
    { unfold u. replace (k + 1 - p) with (1 + (k + - p)) by lia. rewrite !pow2_plus. change (pow2 1) with 2%Q. ring. }
    rewrite UB.
    assert (Y1 : ((15#16) * s0 <= s)%Q) by lra.
    assert (Y2 : (inject_Z D * (s0 - u * s0) <= inject_Z D * s)%Q) by (rewrite !(Qmult_comm (inject_Z D)); apply Qmult_le_compat_r; lra).
    assert (Y3 : (inject_Z D * (u * s0) <= pow2 k * (u * s0))%Q).
    { apply Qmult_le_compat_r; [exact D2|]. apply Qmult_le_0_compat; lra. }
    assert (Y4 : (pow2 k * u * ((15#16) * s0) <= pow2 k * u * s)%Q).
    { rewrite !(Qmult_comm (pow2 k * u)). apply Qmult_le_compat_r; [exact Y1|]. apply Qmult_le_0_compat; [apply Qlt_le_weak, pow2_pos|lra]. }
    assert (Y5 : (0 <= pow2 k * (u * s0))%Q).
    { apply Qmult_le_0_compat; [apply Qlt_le_weak, pow2_pos|apply Qmult_le_0_compat; lra]. }
    setoid_replace (pow2 k * u * ((15 # 16) * s0))%Q with ((15#16) * (pow2 k * (u * s0)))%Q in Y4 by ring.
    setoid_replace ((inject_Z D + 2 * (pow2 k * u)) * s)%Q with (inject_Z D * s + 2 * (pow2 k * u * s))%Q by ring.
    setoid_replace (inject_Z D * (s0 - u * s0))%Q with (inject_Z D * s0 - inject_Z D * (u * s0))%Q in Y2 by ring.
    lra. }
  apply Qabs_Qle_condition in XS.
  apply (quantf1_real_err_e q 0 s x k e); try assumption.
  - unfold zp_nowrap. destruct FI as (? & ? & ?). lia.
  - unfold dt_bound. subst M. lia.
  - change (inject_Z 0) with 0%Q. fold M. split; lra.
Qed.
