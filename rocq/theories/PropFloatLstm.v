(** Property C87: the LSTM layer with every float operation in binary64. *)
From Verif Require Import Base BaseProofs DtypeModel QuantModel QuantProofs LutModel FcModel FcProofs FcLayer EngineModel EngineProofs LstmModel PropCore PropFc
  FloatModel FloatProofs FloatQuant PropFloat FloatFcModel PropFloatFc LstmProofs PropLstm FloatLstmModel FloatLstmProofs.
From Coq Require Import Lqa Qpower.
Open Scope Z_scope.
Open Scope list_scope.

(** ** Specification vocabulary *)
(** A scale any calibration produces: a positive double between 2^-200 and 2^200. *)
Definition fair (s : Q) : Prop := double s /\ (two_to (-200) <= s <= two_to 200)%Q.
(** 2^-49 *)
Definition u49 : Q := 1 # 562949953421312.
(** The codes of the type are exact as doubles. *)
Definition exact_codes (d : gdtype) : Prop := - 2 ^ 53 <= gmin d /\ gmin d <= gmax d /\ gmax d <= 2 ^ 53.

(** ** Multipliers *)
Lemma fair_range s : fair s -> posrange 200 s.
Proof. intros [_ H]. exact H. Qed.
Lemma fair_pos s : fair s -> (0 < s)%Q.
Proof. intros H. exact (posrange_pos _ _ (fair_range _ H)). Qed.
Lemma scale_u s : double s -> near (Fin s) s u53.
Proof. intros D. apply (near_weaken _ _ 0); [discriminate|now apply near_scale]. Qed.
Lemma mult2 a b c r : fair a -> fair b -> fair c -> py_div_f (fmul (Fin a) (Fin b)) (Fin c) = Ok r -> near r (a * b / c) (4 * u53).
Proof.
  intros A B C E. pose proof (fair_range _ A) as RA. pose proof (fair_range _ B) as RB. pose proof (fair_range _ C) as RC.
  destruct (near_div _ _ _ _ 400 200 (near_scales a b 200 200 (proj1 A) (proj1 B) RA RB ltac:(lia)) (scale_u c (proj1 C)) (posrange_mul 200 200 _ _ RA RB) RC ltac:(lia)) as (v & V1 & V2).
  assert (v = r) by congruence. subst v. exact V2.
Qed.
Lemma mult4 a b c d r : fair a -> fair b -> fair c -> fair d ->
  py_div_f (fmul (Fin a) (Fin b)) (fmul (Fin c) (Fin d)) = Ok r -> near r (a * b / (c * d)) (4 * u53).
Proof.
  intros A B C D E. pose proof (fair_range _ A) as RA. pose proof (fair_range _ B) as RB. pose proof (fair_range _ C) as RC. pose proof (fair_range _ D) as RD.
  destruct (near_div _ _ _ _ 400 400 (near_scales a b 200 200 (proj1 A) (proj1 B) RA RB ltac:(lia)) (near_scales c d 200 200 (proj1 C) (proj1 D) RC RD ltac:(lia))
    (posrange_mul 200 200 _ _ RA RB) (posrange_mul 200 200 _ _ RC RD) ltac:(lia)) as (v & V1 & V2).
  assert (v = r) by congruence. subst v. exact V2.
Qed.
(** a product with an integer stays far from overflow *)
Lemma big_ok k x z : k <= 900 -> posrange k x -> Z.abs z <= 2 ^ 110 -> (Qabs (x * inject_Z z) <= pow2 1022)%Q.
Proof.
  intros K R Hz. pose proof (posrange_pos _ _ R). rewrite Qabs_Qmult, (Qabs_pos x) by lra.
  pose proof (abs_inject z 110 ltac:(lia) Hz) as A. pose proof (pow2_pos 110).
  apply Qle_trans with (x * pow2 110)%Q; [rewrite !(Qmult_comm x); apply Qmult_le_compat_r; lra|].
  apply Qle_trans with (pow2 k * pow2 110)%Q; [apply Qmult_le_compat_r; [apply R|lra]|]. rewrite <- pow2_plus. apply pow2_mono. lia.
Qed.
Lemma fclip_clamp lo hi x : lo <= hi -> fclip lo hi (Fin x) = Fin (clampQ lo hi x).
Proof.
  intros L. unfold fclip, clampQ. destruct (Qlt_le_dec x (inject_Z lo)); [|destruct (Qlt_le_dec (inject_Z hi) x); reflexivity].
  destruct (Z.ltb_spec hi lo); [lia|reflexivity].
Qed.
Lemma exact_i64 d : exact_codes d -> int64_dtype d.
Proof. unfold exact_codes, int64_dtype. lia. Qed.
Lemma absQ_inj z : Qabs (inject_Z z) = inject_Z (Z.abs z).
Proof. reflexivity. Qed.
Lemma clamp_i64 d v : int64_dtype d -> (inject_Z (- 2 ^ 63) <= clampQ (gmin d) (gmax d) v <= inject_Z (2 ^ 63 - 1))%Q.
Proof.
  intros (D1 & D2 & D3).
  assert (LQ : (inject_Z (gmin d) <= inject_Z (gmax d))%Q) by (apply (proj1 (Zle_inj _ _)); exact D2).
  assert (LA : (inject_Z (- 2 ^ 63) <= inject_Z (gmin d))%Q) by (apply (proj1 (Zle_inj _ _)); exact D1).
  assert (LB : (inject_Z (gmax d) <= inject_Z (2 ^ 63 - 1))%Q) by (apply (proj1 (Zle_inj _ _)); exact D3).
  unfold clampQ. destruct (Qlt_le_dec v (inject_Z (gmin d))); [lra|]. destruct (Qlt_le_dec (inject_Z (gmax d)) v); lra.
Qed.

(** ** One gate's values *)
Section Gate.
  Variables (input hidden : node) (gn : gate_nodes) (g : fgate).
  Hypothesis Hb : build_gate_f input hidden gn = Ok g.
  Notation ks := (n_scale (gn_kernel gn)). Notation is := (n_scale input). Notation rks := (n_scale (gn_rec gn)).
  Notation hs := (n_scale hidden). Notation ras := (n_scale (gn_radd gn)).
  Hypothesis Fk : fair ks. Hypothesis Fi : fair is. Hypothesis Fr : fair rks. Hypothesis Fh : fair hs. Hypothesis Fa : fair ras.
  Definition M1q : Q := (ks * is / (hs * rks))%Q.
  Definition M2q : Q := (rks * hs / ras)%Q.
  Lemma gate_mults : near (fg_M1 g) M1q (4 * u53) /\ near (fg_M2 g) M2q (4 * u53) /\ fg_rzp g = zp0 (gn_radd gn).
  Proof.
    unfold build_gate_f in Hb. repeat match type of Hb with rbind ?m _ = Ok _ => let D := fresh "D" in destruct m eqn:D; [cbn [rbind] in Hb|discriminate] end.
    match type of Hb with Ok ?t = _ => assert (E : g = t) by congruence end. rewrite E. cbn [fg_M1 fg_M2 fg_rzp].
    unfold n_scale_f in *. split; [|split; [|reflexivity]].
    - eapply mult4; [exact Fk|exact Fi|exact Fh|exact Fr|eassumption].
    - eapply mult2; [exact Fr|exact Fh|exact Fa|eassumption].
  Qed.
  Lemma M1_range : posrange 800 M1q.
  Proof. apply (posrange_div 400 400); apply (posrange_mul 200 200); apply fair_range; assumption. Qed.
  Lemma M2_range : posrange 600 M2q.
  Proof. apply (posrange_div 400 200); [apply (posrange_mul 200 200)|]; apply fair_range; assumption. Qed.
  (** M1 * acc before truncation *)
  Lemma bias_value acc : Z.abs acc <= 2 ^ 53 ->
    exists y, fmul (fg_M1 g) (f_of_Z acc) = Fin y /\ (Qabs (y - M1q * inject_Z acc) <= 6 * u53 * Qabs (M1q * inject_Z acc))%Q.
  Proof.
    intros H. destruct gate_mults as (N1 & _ & _).
    destruct (near_mulZ (fg_M1 g) M1q (4 * u53) acc ltac:(split; discriminate) N1 H (big_ok 800 _ acc ltac:(lia) M1_range ltac:(lia))) as (_ & y & Y1 & _ & Y3).
    exists y. split; [exact Y1|]. eapply Qle_trans; [exact Y3|]. apply Qmult_le_compat_r; [discriminate|apply Qabs_nonneg].
  Qed.
  (** (S * M2 + rzp) before the clip *)
  Lemma pre_value acc : Z.abs acc <= 2 ^ 53 -> Z.abs (zp0 (gn_radd gn)) <= 2 ^ 53 ->
    exists y, fadd (fmul (f_of_Z acc) (fg_M2 g)) (f_of_Z (fg_rzp g)) = Fin y /\
      (Qabs (y - (inject_Z acc * M2q + inject_Z (zp0 (gn_radd gn)))) <= 8 * u53 * Qabs (inject_Z acc * M2q) + u53 * Qabs (inject_Z (zp0 (gn_radd gn))))%Q.
  Proof.
    intros H HZ. destruct gate_mults as (_ & N2 & ->).
    pose proof (big_ok 600 _ acc ltac:(lia) M2_range ltac:(lia)) as B.
    destruct (near_mulZ (fg_M2 g) M2q (4 * u53) acc ltac:(split; discriminate) N2 H B) as (N & _).
    apply near_abs in N. pose proof (absn_Z _ HZ) as NZ.
    pose proof (abs_inject (zp0 (gn_radd gn)) 53 ltac:(lia) HZ) as BZ.
    set (P := Qabs (M2q * inject_Z acc)) in *. set (Zq := Qabs (inject_Z (zp0 (gn_radd gn)))) in *.
    assert (P0 : (0 <= P)%Q) by apply Qabs_nonneg.
    assert (BP : (P <= pow2 700)%Q).
    { unfold P. rewrite Qabs_Qmult, (Qabs_pos M2q) by (apply Qlt_le_weak, (posrange_pos _ _ M2_range)).
      pose proof (abs_inject acc 53 ltac:(lia) H) as A. pose proof (pow2_pos 53). pose proof (posrange_pos _ _ M2_range).
      apply Qle_trans with (M2q * pow2 53)%Q; [rewrite !(Qmult_comm M2q); apply Qmult_le_compat_r; lra|].
      apply Qle_trans with (pow2 600 * pow2 53)%Q; [apply Qmult_le_compat_r; [apply M2_range|lra]|]. rewrite <- pow2_plus. apply pow2_mono. lia. }
    assert (TP : (0 <= u53 * P)%Q) by (apply Qmult_le_0_compat; [discriminate|exact P0]).
    assert (TP2 : (u53 * P <= (1#100) * P)%Q) by (apply Qmult_le_compat_r; [discriminate|exact P0]).
    destruct (absn_add _ _ _ _ _ _ (P * (1 + (1#2)) + Zq)%Q N NZ) as (y & Y1 & _ & Y3).
    - fold P Zq. lra.
    - assert (X1 : (pow2 700 <= pow2 1020)%Q) by (apply pow2_mono; lia). assert (X2 : (pow2 53 <= pow2 1020)%Q) by (apply pow2_mono; lia).
      assert (X3 : (pow2 1022 == pow2 1020 * 4)%Q) by (change 1022 with (1020 + 2); rewrite pow2_plus; reflexivity). rewrite X3. lra.
    - exists y. split; [exact Y1|]. fold P in Y3.
      assert (EP : (Qabs (inject_Z acc * M2q) == P)%Q) by (unfold P; rewrite (Qmult_comm M2q); reflexivity). rewrite EP.
      setoid_replace (inject_Z acc * M2q)%Q with (M2q * inject_Z acc)%Q by ring. eapply Qle_trans; [exact Y3|]. lra.
  Qed.
End Gate.

(** Pre-activation code of cell j in binary64 against the clamped real-valued pre-activation. *)
Theorem C87_preactivation : forall input hidden gn g n d x h b r,
  build_gate_f input hidden gn = Ok g ->
  let ks := n_scale (gn_kernel gn) in let is := n_scale input in
  let rks := n_scale (gn_rec gn) in let hs := n_scale hidden in let ras := n_scale (gn_radd gn) in
  let rz := zp0 (gn_radd gn) in
  fair ks -> fair is -> fair rks -> fair hs -> fair ras -> exact_codes d -> Z.abs rz <= 2 ^ 53 ->
  bias_add_row_f n g x = Ok b -> recurrent_row_f n d g h b = Ok r ->
  forall j, (j < n)%nat ->
    let kacc := dot_col j x (fg_kernel g) + nth j (fg_bias g) 0 in
    let racc := dot_col j h (fg_rec g) in
    let A := (ks * is * inject_Z (Z.abs kacc) / ras)%Q in
    let B := (rks * hs * inject_Z (Z.abs racc) / ras)%Q in
    Z.abs (dot_col j x (fg_kernel g)) <= 2 ^ 52 -> Z.abs (nth j (fg_bias g) 0) <= 2 ^ 52 -> Z.abs racc <= 2 ^ 51 ->
    (ks * is / (hs * rks) * inject_Z (Z.abs kacc) <= inject_Z (2 ^ 51))%Q ->
    (Qabs (inject_Z (nth j r 0%Z) - clampQ (gmin d) (gmax d) (real_pre ks is rks hs ras rz kacc racc))
     <= 1 + rks * hs / ras + u49 * (A + B + rks * hs / ras + inject_Z (Z.abs rz)))%Q.
Proof.
  intros input hidden gn g n d x h b r Hb ks is rks hs ras rz Fk Fi Fr Fh Fa Dx Hz Eb Er j Hj kacc racc A B S1 S2 S4 S5.
  pose proof (fair_pos _ Fk) as Pk. pose proof (fair_pos _ Fi) as Pi. pose proof (fair_pos _ Fr) as Pr. pose proof (fair_pos _ Fh) as Ph. pose proof (fair_pos _ Fa) as Pa.
  unfold bias_add_row_f, vecmat in Eb. destruct (length x =? length (fg_kernel g))%nat; [|discriminate]. cbn [rbind] in Eb.
  match type of Eb with Ok ?t = _ => assert (Eb' : b = t) by congruence end. clear Eb.
  unfold recurrent_row_f, vecmat in Er. destruct (length h =? length (fg_rec g))%nat; [|discriminate]. cbn [rbind] in Er.
  match type of Er with Ok ?t = _ => assert (Er' : r = t) by congruence end. clear Er.
  assert (NM : forall (F : nat -> Z), nth j (map F (seq 0 n)) 0 = F j).
  { intros F. rewrite (nth_indep _ 0 (F 0%nat)) by (now rewrite map_length, seq_length).
    rewrite map_nth. now rewrite seq_nth by exact Hj. }
  assert (K53 : Z.abs kacc <= 2 ^ 53) by (unfold kacc; lia).
  destruct (bias_value input hidden gn g Hb Fk Fi Fr Fh Fa kacc K53) as (y & Y1 & Y2).
  set (M1 := M1q input hidden gn) in *. set (m := Qabs (M1 * inject_Z kacc)) in *.
  assert (PM1 : (0 < M1)%Q) by (apply (posrange_pos 800), M1_range; assumption).
  assert (EM : (m == M1 * inject_Z (Z.abs kacc))%Q) by (unfold m; rewrite Qabs_Qmult, (Qabs_pos M1) by lra; reflexivity).
  assert (M0 : (0 <= m)%Q) by apply Qabs_nonneg.
  assert (MB : (m <= inject_Z (2 ^ 51))%Q) by (rewrite EM; exact S5).
  assert (UM : (0 <= u53 * m)%Q) by (apply Qmult_le_0_compat; [discriminate|exact M0]).
  assert (UM2 : (u53 * m <= (1#4))%Q). { apply Qle_trans with (u53 * inject_Z (2 ^ 51))%Q; [rewrite !(Qmult_comm u53); apply Qmult_le_compat_r; [exact MB|discriminate]|vm_compute; discriminate]. }
  set (ba := to_i64 y).
  assert (Bj : nth j b 0 = ba).
  { rewrite Eb', NM, NM. fold (dot_col j x (fg_kernel g)).
    rewrite (i64_id (dot_col j x (fg_kernel g))) by lia. fold kacc. rewrite (i64_id kacc) by lia. rewrite Y1. reflexivity. }
  assert (YB : (Qabs y <= inject_Z (2 ^ 51) + 2)%Q).
  { pose proof (abs_le_of _ _ _ Y2) as T. fold m in T. lra. }
  assert (Bn : (Qabs (inject_Z ba - y) < 1)%Q).
  { apply to_i64_near, small_Q_i64. unfold small_Q. eapply Qle_trans; [exact YB|]. vm_compute; discriminate. }
  assert (Bs : Z.abs ba <= 2 ^ 51 + 3).
  { assert (T : (Qabs (inject_Z ba) < inject_Z (2 ^ 51 + 3))%Q).
    { setoid_replace (inject_Z ba) with ((inject_Z ba - y) + y)%Q by ring. eapply Qle_lt_trans; [apply Qabs_triangle|].
      rewrite inject_Z_plus. change (inject_Z 3) with 3%Q. lra. }
    rewrite absQ_inj in T. apply Zlt_inj in T. lia. }
  assert (S53 : Z.abs (racc + ba) <= 2 ^ 53) by lia.
  destruct (pre_value input hidden gn g Hb Fk Fi Fr Fh Fa (racc + ba) S53 Hz) as (v & V1 & V2).
  assert (Rj : nth j r 0 = to_i64 (clampQ (gmin d) (gmax d) v)).
  { rewrite Er', NM, NM, Bj. fold (dot_col j h (fg_rec g)). fold racc.
    rewrite (i64_id racc) by lia. rewrite (i64_id (racc + ba)) by lia. rewrite V1. rewrite fclip_clamp by apply Dx. reflexivity. }
  rewrite Rj. set (M2 := M2q hidden gn) in *. assert (PM2 : (0 < M2)%Q) by (apply (posrange_pos 600), M2_range; assumption).
  change (rks * hs / ras)%Q with M2. set (ref := real_pre ks is rks hs ras rz kacc racc). fold rz in V2, Hz.
  assert (EA : (A == M1 * M2 * inject_Z (Z.abs kacc))%Q) by (unfold A, M1, M2, M1q, M2q; fold ks is rks hs ras; field; repeat split; lra).
  assert (EB : (B == M2 * inject_Z (Z.abs racc))%Q) by (unfold B, M2, M2q; fold ks is rks hs ras; field; lra).
  assert (MA : (m * M2 == A)%Q) by (rewrite EM, EA; ring).
  assert (A0 : (0 <= A)%Q) by (rewrite <- MA; apply Qmult_le_0_compat; lra).
  assert (B0 : (0 <= B)%Q) by (rewrite EB; apply Qmult_le_0_compat; [lra|apply (proj1 (Zle_inj 0 _)); lia]).
  set (zq := inject_Z (Z.abs rz)) in *. assert (Z0 : (0 <= zq)%Q) by (apply (proj1 (Zle_inj 0 _)); lia).
  (* |S M2| *)
  assert (DB : (Qabs (inject_Z ba - M1 * inject_Z kacc) <= 1 + 6 * u53 * m)%Q).
  { setoid_replace (inject_Z ba - M1 * inject_Z kacc)%Q with ((inject_Z ba - y) + (y - M1 * inject_Z kacc))%Q by ring.
    eapply Qle_trans; [apply Qabs_triangle|]. lra. }
  assert (SM : (Qabs (inject_Z (racc + ba) * M2) <= B + A + M2 + 6 * u53 * A)%Q).
  { rewrite Qabs_Qmult, (Qabs_pos M2) by lra. rewrite inject_Z_plus.
    assert (T : (Qabs (inject_Z racc + inject_Z ba) <= inject_Z (Z.abs racc) + (m + (1 + 6 * u53 * m)))%Q).
    { eapply Qle_trans; [apply Qabs_triangle|]. rewrite absQ_inj. pose proof (abs_le_of _ _ _ DB) as T. fold m in T. lra. }
    apply Qle_trans with ((inject_Z (Z.abs racc) + (m + (1 + 6 * u53 * m))) * M2)%Q; [apply Qmult_le_compat_r; lra|].
    rewrite EB, <- MA. apply Qle_lteq. right. ring. }
  assert (V : (Qabs (v - ref) <= M2 + u49 * (A + B + M2 + zq))%Q).
  { assert (E : (inject_Z (racc + ba) * M2 + inject_Z rz - ref == (inject_Z ba - M1 * inject_Z kacc) * M2)%Q).
    { unfold ref, real_pre, M1, M2, M1q, M2q. rewrite inject_Z_plus. fold ks is rks hs ras. field. repeat split; lra. }
    setoid_replace (v - ref)%Q with ((v - (inject_Z (racc + ba) * M2 + inject_Z rz)) + (inject_Z (racc + ba) * M2 + inject_Z rz - ref))%Q by ring.
    eapply Qle_trans; [apply Qabs_triangle|]. rewrite E, (Qabs_Qmult (inject_Z ba - M1 * inject_Z kacc) M2), (Qabs_pos M2) by lra.
    assert (T1 : (Qabs (inject_Z ba - M1 * inject_Z kacc) * M2 <= M2 + 6 * u53 * A)%Q).
    { apply Qle_trans with ((1 + 6 * u53 * m) * M2)%Q; [apply Qmult_le_compat_r; lra|]. rewrite <- MA. apply Qle_lteq. right. ring. }
    assert (T2 : (8 * u53 * Qabs (inject_Z (racc + ba) * M2) <= 8 * u53 * (B + A + M2 + 6 * u53 * A))%Q).
    { rewrite !(Qmult_comm (8 * u53)). apply Qmult_le_compat_r; [exact SM|discriminate]. }
    rewrite absQ_inj in V2. fold zq in V2.
    assert (C1 : (14 * u53 * A + 48 * u53 * u53 * A <= u49 * A)%Q).
    { setoid_replace (14 * u53 * A + 48 * u53 * u53 * A)%Q with ((14 * u53 + 48 * u53 * u53) * A)%Q by ring. apply Qmult_le_compat_r; [vm_compute; discriminate|exact A0]. }
    assert (C2 : (8 * u53 * (B + M2 + zq) <= u49 * (B + M2 + zq))%Q) by (apply Qmult_le_compat_r; [vm_compute; discriminate|lra]).
    assert (C3 : (0 <= u53 * zq)%Q) by (apply Qmult_le_0_compat; [discriminate|exact Z0]).
    lra. }
  destruct Dx as (D1 & D2 & D3).
  apply (clampQ_lip (gmin d) (gmax d)) in V; [|exact D2].
  assert (C : (Qabs (inject_Z (to_i64 (clampQ (gmin d) (gmax d) v)) - clampQ (gmin d) (gmax d) v) < 1)%Q).
  { apply to_i64_near, clamp_i64. unfold int64_dtype. lia. }
  apply Qabs_Qle_condition in V. apply Qabs_Qlt_condition in C. apply Qabs_Qle_condition. split; lra.
Qed.

(** ** Cell and hidden state *)
Lemma pow2_4 : (pow2 1022 == pow2 1019 * 8)%Q.
Proof. change 1022 with (1019 + 3). rewrite pow2_plus. reflexivity. Qed.
Lemma prod_big k x z : k <= 900 -> posrange k x -> Z.abs z <= 2 ^ 110 -> (Qabs (x * inject_Z z) <= pow2 1019)%Q.
Proof.
  intros K R Hz. pose proof (posrange_pos _ _ R). rewrite Qabs_Qmult, (Qabs_pos x) by lra.
  pose proof (abs_inject z 110 ltac:(lia) Hz) as A. pose proof (pow2_pos 110).
  apply Qle_trans with (x * pow2 110)%Q; [rewrite !(Qmult_comm x); apply Qmult_le_compat_r; lra|].
  apply Qle_trans with (pow2 k * pow2 110)%Q; [apply Qmult_le_compat_r; [apply R|lra]|]. rewrite <- pow2_plus. apply pow2_mono. lia.
Qed.
(** z + m * n, with m within 4u of M *)
Lemma fma_value a M k z n : near a M (4 * u53) -> k <= 900 -> posrange k M -> Z.abs z <= 2 ^ 53 -> Z.abs n <= 2 ^ 53 ->
  exists y, fadd (f_of_Z z) (fmul (f_of_Z n) a) = Fin y /\
    (Qabs (y - (inject_Z z + inject_Z n * M)) <= 8 * u53 * (Qabs (inject_Z z) + Qabs (inject_Z n * M)))%Q.
Proof.
  intros N K R HZ Hn. pose proof (prod_big k M n K R ltac:(lia)) as B.
  assert (B' : (Qabs (M * inject_Z n) <= pow2 1022)%Q) by (eapply Qle_trans; [exact B|apply pow2_mono; lia]).
  destruct (near_mulZ a M (4 * u53) n ltac:(split; discriminate) N Hn B') as (N1 & _). apply near_abs in N1.
  pose proof (absn_Z _ HZ) as NZ. pose proof (abs_inject z 53 ltac:(lia) HZ) as BZ.
  set (P := Qabs (M * inject_Z n)) in *. assert (P0 : (0 <= P)%Q) by apply Qabs_nonneg.
  assert (EP : (Qabs (inject_Z n * M) == P)%Q) by (unfold P; rewrite (Qmult_comm M); reflexivity).
  set (zq := Qabs (inject_Z z)) in *. assert (Z0 : (0 <= zq)%Q) by apply Qabs_nonneg.
  assert (TP : (0 <= u53 * P)%Q) by (apply Qmult_le_0_compat; [discriminate|exact P0]).
  assert (TZ : (0 <= u53 * zq)%Q) by (apply Qmult_le_0_compat; [discriminate|exact Z0]).
  assert (TP2 : (u53 * P <= (1#100) * P)%Q) by (apply Qmult_le_compat_r; [discriminate|exact P0]).
  destruct (absn_add _ _ _ _ _ _ (zq + P * (1 + (1#2)))%Q NZ N1) as (y & Y1 & _ & Y3).
  - fold P zq. lra.
  - rewrite pow2_4. assert (X2 : (pow2 53 <= pow2 1019)%Q) by (apply pow2_mono; lia). lra.
  - exists y. split; [exact Y1|]. fold P in Y3. rewrite EP.
    setoid_replace (inject_Z z + inject_Z n * M)%Q with (inject_Z z + M * inject_Z n)%Q by ring. eapply Qle_trans; [exact Y3|]. lra.
Qed.
(** z + (s * f) * c + m * n *)
Lemma cell_value a M k s z f c n : near a M (4 * u53) -> k <= 900 -> posrange k M -> fair s ->
  Z.abs z <= 2 ^ 53 -> Z.abs f <= 2 ^ 53 -> Z.abs c <= 2 ^ 53 -> Z.abs n <= 2 ^ 53 ->
  exists y, fadd (fadd (f_of_Z z) (fmul (fmul (f_of_Z f) (Fin s)) (f_of_Z c))) (fmul (f_of_Z n) a) = Fin y /\
    (Qabs (y - (inject_Z z + inject_Z f * s * inject_Z c + inject_Z n * M))
     <= 8 * u53 * (Qabs (inject_Z z) + Qabs (inject_Z f * s * inject_Z c) + Qabs (inject_Z n * M)))%Q.
Proof.
  intros N K R [Ds Rs] HZ Hf Hc Hn. pose proof (prod_big k M n K R ltac:(lia)) as B.
  assert (B' : (Qabs (M * inject_Z n) <= pow2 1022)%Q) by (eapply Qle_trans; [exact B|apply pow2_mono; lia]).
  destruct (near_mulZ a M (4 * u53) n ltac:(split; discriminate) N Hn B') as (N1 & _). apply near_abs in N1.
  pose proof (absn_Z _ HZ) as NZ. pose proof (abs_inject z 53 ltac:(lia) HZ) as BZ.
  assert (FC : Z.abs (f * c) <= 2 ^ 106). { rewrite Z.abs_mul. replace (2 ^ 106) with (2 ^ 53 * 2 ^ 53) by reflexivity. apply Z.mul_le_mono_nonneg; lia. }
  pose proof (prod_big 200 s (f * c) ltac:(lia) Rs ltac:(lia)) as B1.
  destruct (near_mulZ (Fin s) s 0 f ltac:(split; discriminate) (near_scale s Ds) Hf (big_ok 200 _ f ltac:(lia) Rs ltac:(lia))) as (N2 & _).
  assert (E1 : (s * inject_Z f * inject_Z c == s * inject_Z (f * c))%Q) by (rewrite inject_Z_mult; ring).
  destruct (near_mulZ _ _ (0 + 2 * u53) c ltac:(split; discriminate) N2 Hc) as (_ & N3).
  { rewrite E1. eapply Qle_trans; [exact B1|apply pow2_mono; lia]. }
  apply near_abs in N3.
  assert (E2 : (Qabs (inject_Z f * s * inject_Z c) == Qabs (s * inject_Z f * inject_Z c))%Q) by (rewrite (Qmult_comm (inject_Z f)); reflexivity).
  rewrite <- E1 in B1.
  set (P1 := Qabs (s * inject_Z f * inject_Z c)) in *. assert (P10 : (0 <= P1)%Q) by apply Qabs_nonneg.
  set (P := Qabs (M * inject_Z n)) in *. assert (P0 : (0 <= P)%Q) by apply Qabs_nonneg.
  assert (EP : (Qabs (inject_Z n * M) == P)%Q) by (unfold P; rewrite (Qmult_comm M); reflexivity).
  set (zq := Qabs (inject_Z z)) in *. assert (Z0 : (0 <= zq)%Q) by apply Qabs_nonneg.
  assert (TP : (0 <= u53 * P)%Q) by (apply Qmult_le_0_compat; [discriminate|exact P0]).
  assert (TP1 : (0 <= u53 * P1)%Q) by (apply Qmult_le_0_compat; [discriminate|exact P10]).
  assert (TZ : (0 <= u53 * zq)%Q) by (apply Qmult_le_0_compat; [discriminate|exact Z0]).
  assert (TP2 : (u53 * P <= (1#100) * P)%Q) by (apply Qmult_le_compat_r; [discriminate|exact P0]).
  assert (TP12 : (u53 * P1 <= (1#100) * P1)%Q) by (apply Qmult_le_compat_r; [discriminate|exact P10]).
  assert (TZ2 : (u53 * zq <= (1#100) * zq)%Q) by (apply Qmult_le_compat_r; [discriminate|exact Z0]).
  assert (X2 : (pow2 53 <= pow2 1019)%Q) by (apply pow2_mono; lia).
  assert (N4 : absn (fadd (f_of_Z z) (fmul (fmul (f_of_Z f) (Fin s)) (f_of_Z c))) (inject_Z z + s * inject_Z f * inject_Z c)
                 (0 + (0 + 2 * u53 + 2 * u53) * P1 + u53 * (zq + P1 * (1 + (1#2))))).
  { apply absn_add; [exact NZ|exact N3|fold P1 zq; lra|rewrite pow2_4; lra]. }
  destruct (absn_add _ _ _ _ _ _ (zq * (1 + (1#2)) + P1 * (1 + (1#2)) + P * (1 + (1#2)))%Q N4 N1) as (y & Y1 & _ & Y3).
  - fold P. pose proof (Qabs_triangle (inject_Z z) (s * inject_Z f * inject_Z c)) as T. fold zq P1 in T. lra.
  - rewrite pow2_4. lra.
  - exists y. split; [exact Y1|]. fold P in Y3. rewrite EP, E2. fold P1.
    setoid_replace (inject_Z z + inject_Z f * s * inject_Z c + inject_Z n * M)%Q with (inject_Z z + s * inject_Z f * inject_Z c + M * inject_Z n)%Q by ring.
    eapply Qle_trans; [exact Y3|]. lra.
Qed.

(** Fields of the built layer. *)
Lemma build_f_fields input hidden state act_in act_out gi gf gc go sq l :
  lstm_build_f input hidden state act_in act_out gi gf gc go sq = Ok l ->
  build_gate_f input hidden gi = Ok (fl_in l) /\ build_gate_f input hidden gf = Ok (fl_forget l) /\
  build_gate_f input hidden gc = Ok (fl_cell l) /\ build_gate_f input hidden go = Ok (fl_out l) /\
  fl_M3 l = n_scale_f (gn_out gf) /\
  py_div_f (fmul (n_scale_f (gn_out gi)) (n_scale_f (gn_out gc))) (n_scale_f state) = Ok (fl_M4 l) /\
  py_div_f (fmul (n_scale_f (gn_out go)) (n_scale_f act_out)) (n_scale_f hidden) = Ok (fl_M5 l) /\
  (fl_hidden_zp l = zp0 hidden /\ fl_in_zp l = zp0 (gn_out gi) /\ fl_forget_zp l = zp0 (gn_out gf) /\ fl_cellg_zp l = zp0 (gn_out gc) /\
   fl_out_zp l = zp0 (gn_out go) /\ fl_state_zp l = zp0 state /\ fl_act_zp l = zp0 act_out) /\
  fl_rec_dtype l = n_dtype (gn_radd gi) /\ fl_state_dtype l = n_dtype act_out /\ fl_hidden_dtype l = n_dtype hidden.
Proof.
  intros Hb. unfold lstm_build_f in Hb. cbv zeta in Hb.
  repeat match type of Hb with rbind ?m _ = Ok _ => let D := fresh "D" in destruct m eqn:D; [cbn [rbind] in Hb|discriminate] end.
  match type of Hb with Ok ?t = _ => assert (E : l = t) by congruence end. rewrite E.
  cbn. repeat split; auto.
Qed.

Theorem C87_cell_state : forall input hidden state act_in act_out gi gf gc go sq l f c i g,
  lstm_build_f input hidden state act_in act_out gi gf gc go sq = Ok l ->
  fair (n_scale state) -> fair (n_scale (gn_out gf)) -> fair (n_scale (gn_out gi)) -> fair (n_scale (gn_out gc)) ->
  gmin (n_dtype act_out) <= gmax (n_dtype act_out) ->
  Z.abs (zp0 state) <= 2 ^ 53 -> Z.abs (f - zp0 (gn_out gf)) <= 2 ^ 53 -> Z.abs (c - zp0 state) <= 2 ^ 53 ->
  Z.abs ((i - zp0 (gn_out gi)) * (g - zp0 (gn_out gc))) <= 2 ^ 53 ->
  let val n q := (n_scale n * inject_Z (q - zp0 n))%Q in
  let fc := (val (gn_out gf) f * val state c / n_scale state)%Q in
  let ig := (val (gn_out gi) i * val (gn_out gc) g / n_scale state)%Q in
  let mag := (Qabs (inject_Z (zp0 state)) + Qabs fc + Qabs ig)%Q in
  (mag <= inject_Z (2 ^ 61))%Q ->
  (Qabs (inject_Z (cell1_f l f c i g) - clampQ (gmin (n_dtype act_out)) (gmax (n_dtype act_out)) (inject_Z (zp0 state) + fc + ig))
   <= 1 + u50 * mag)%Q.
Proof.
  intros input hidden state act_in act_out gi gf gc go sq l f c i g Hb Fs Ff Fi Fc Hd Z1 Z2 Z3 Z4 val fc ig mag Sm.
  destruct (build_f_fields _ _ _ _ _ _ _ _ _ _ _ Hb) as (_ & _ & _ & _ & M3 & M4 & _ & (_ & E1 & E2 & E3 & _ & E5 & _) & _ & E7 & _).
  pose proof (fair_pos _ Fs) as Ps. unfold n_scale_f in M3, M4. pose proof (mult2 _ _ _ _ Fi Fc Fs M4) as N4.
  assert (R4 : posrange 600 (n_scale (gn_out gi) * n_scale (gn_out gc) / n_scale state)).
  { apply (posrange_div 400 200); [apply (posrange_mul 200 200)|]; apply fair_range; assumption. }
  destruct (cell_value _ _ 600 (n_scale (gn_out gf)) (zp0 state) (f - zp0 (gn_out gf)) (c - zp0 state) _ N4 ltac:(lia) R4 Ff Z1 Z2 Z3 Z4) as (y & Y1 & Y2).
  unfold cell1_f. rewrite M3, E1, E2, E3, E5, E7, Y1. cbn [fcast_i64].
  assert (X1 : (inject_Z (f - zp0 (gn_out gf)) * n_scale (gn_out gf) * inject_Z (c - zp0 state) == fc)%Q) by (unfold fc, val; field; lra).
  assert (X2 : (inject_Z ((i - zp0 (gn_out gi)) * (g - zp0 (gn_out gc))) * (n_scale (gn_out gi) * n_scale (gn_out gc) / n_scale state) == ig)%Q)
    by (unfold ig, val; rewrite inject_Z_mult; field; lra).
  rewrite X1, X2 in Y2. fold mag in Y2.
  assert (M0 : (0 <= mag)%Q) by (unfold mag; pose proof (Qabs_nonneg (inject_Z (zp0 state))); pose proof (Qabs_nonneg fc); pose proof (Qabs_nonneg ig); lra).
  assert (U50 : (8 * u53 * mag <= u50 * mag)%Q) by (apply Qmult_le_compat_r; [vm_compute; discriminate|exact M0]).
  assert (U1 : (u50 * mag <= mag)%Q) by (rewrite <- (Qmult_1_l mag) at 2; apply Qmult_le_compat_r; [discriminate|exact M0]).
  assert (CB : (Qabs (inject_Z (zp0 state) + fc + ig) <= mag)%Q).
  { unfold mag. eapply Qle_trans; [apply Qabs_triangle|]. pose proof (Qabs_triangle (inject_Z (zp0 state)) fc). lra. }
  assert (YB : (Qabs (inject_Z (to_i64 y) - y) < 1)%Q).
  { apply to_i64_near, small_Q_i64. unfold small_Q. pose proof (abs_le_of _ _ _ Y2). eapply Qle_trans; [eassumption|].
    assert (T : (inject_Z (2 ^ 62) == 2 * inject_Z (2 ^ 61))%Q) by reflexivity. rewrite T. lra. }
  rewrite <- clamp_clip by exact Hd. apply clampQ_close; [exact Hd|].
  setoid_replace (inject_Z (to_i64 y) - (inject_Z (zp0 state) + fc + ig))%Q
    with ((inject_Z (to_i64 y) - y) + (y - (inject_Z (zp0 state) + fc + ig)))%Q by ring.
  eapply Qle_trans; [apply Qabs_triangle|]. lra.
Qed.

Theorem C87_hidden_state : forall input hidden state act_in act_out gi gf gc go sq l o a,
  lstm_build_f input hidden state act_in act_out gi gf gc go sq = Ok l ->
  fair (n_scale hidden) -> fair (n_scale (gn_out go)) -> fair (n_scale act_out) ->
  gmin (n_dtype hidden) <= gmax (n_dtype hidden) ->
  Z.abs (zp0 hidden) <= 2 ^ 53 -> Z.abs ((o - zp0 (gn_out go)) * (a - zp0 act_out)) <= 2 ^ 53 ->
  let val n q := (n_scale n * inject_Z (q - zp0 n))%Q in
  let oa := (val (gn_out go) o * val act_out a / n_scale hidden)%Q in
  let mag := (Qabs (inject_Z (zp0 hidden)) + Qabs oa)%Q in
  (mag <= inject_Z (2 ^ 61))%Q ->
  (Qabs (inject_Z (hidden1_f l o a) - clampQ (gmin (n_dtype hidden)) (gmax (n_dtype hidden)) (inject_Z (zp0 hidden) + oa))
   <= 1 + u50 * mag)%Q.
Proof.
  intros input hidden state act_in act_out gi gf gc go sq l o a Hb Fh Fo Fa Hd Z1 Z2 val oa mag Sm.
  destruct (build_f_fields _ _ _ _ _ _ _ _ _ _ _ Hb) as (_ & _ & _ & _ & _ & _ & M5 & (E1 & _ & _ & _ & E4 & _ & E6) & _ & _ & E7).
  pose proof (fair_pos _ Fh) as Ps. unfold n_scale_f in M5. pose proof (mult2 _ _ _ _ Fo Fa Fh M5) as N5.
  assert (R5 : posrange 600 (n_scale (gn_out go) * n_scale act_out / n_scale hidden)).
  { apply (posrange_div 400 200); [apply (posrange_mul 200 200)|]; apply fair_range; assumption. }
  destruct (fma_value _ _ 600 (zp0 hidden) _ N5 ltac:(lia) R5 Z1 Z2) as (y & Y1 & Y2).
  unfold hidden1_f. rewrite E1, E4, E6, E7, Y1. cbn [fcast_i64].
  assert (X2 : (inject_Z ((o - zp0 (gn_out go)) * (a - zp0 act_out)) * (n_scale (gn_out go) * n_scale act_out / n_scale hidden) == oa)%Q)
    by (unfold oa, val; rewrite inject_Z_mult; field; lra).
  rewrite X2 in Y2. fold mag in Y2.
  assert (M0 : (0 <= mag)%Q) by (unfold mag; pose proof (Qabs_nonneg (inject_Z (zp0 hidden))); pose proof (Qabs_nonneg oa); lra).
  assert (U50 : (8 * u53 * mag <= u50 * mag)%Q) by (apply Qmult_le_compat_r; [vm_compute; discriminate|exact M0]).
  assert (U1 : (u50 * mag <= mag)%Q) by (rewrite <- (Qmult_1_l mag) at 2; apply Qmult_le_compat_r; [discriminate|exact M0]).
  assert (CB : (Qabs (inject_Z (zp0 hidden) + oa) <= mag)%Q) by apply Qabs_triangle.
  assert (YB : (Qabs (inject_Z (to_i64 y) - y) < 1)%Q).
  { apply to_i64_near, small_Q_i64. unfold small_Q. pose proof (abs_le_of _ _ _ Y2). eapply Qle_trans; [eassumption|].
    assert (T : (inject_Z (2 ^ 62) == 2 * inject_Z (2 ^ 61))%Q) by reflexivity. rewrite T. lra. }
  rewrite <- clamp_clip by exact Hd. apply clampQ_close; [exact Hd|].
  setoid_replace (inject_Z (to_i64 y) - (inject_Z (zp0 hidden) + oa))%Q
    with ((inject_Z (to_i64 y) - y) + (y - (inject_Z (zp0 hidden) + oa)))%Q by ring.
  eapply Qle_trans; [apply Qabs_triangle|]. lra.
Qed.

(** ** When binary64 gives exactly the codes of exact arithmetic *)
(** No nonzero integer code between [lo] and [hi] lies within [m] of x. *)
Definition clear (lo hi : Z) (x m : Q) : Prop := forall z, z <> 0 -> lo <= z <= hi -> (m < Qabs (x - inject_Z z))%Q.
(** The values one gate truncates stay clear of the integers by a relative 2^-50. *)
Definition steady_gate (g : gate) (n : nat) (d : gdtype) (h x : list Z) : Prop := forall j, (j < n)%nat ->
  let kacc := dot_col j x (g_kernel g) + nth j (g_bias g) 0 in
  let racc := dot_col j h (g_rec g) in
  let v := (g_M1 g * inject_Z kacc)%Q in
  let w := (inject_Z (racc + Qtrunc v) * g_M2 g)%Q in
  Z.abs (dot_col j x (g_kernel g)) <= 2 ^ 52 /\ Z.abs (nth j (g_bias g) 0) <= 2 ^ 52 /\ Z.abs racc <= 2 ^ 51 /\ (Qabs v <= inject_Z (2 ^ 51))%Q /\
  clear (- 2 ^ 52) (2 ^ 52) v (u50 * Qabs v) /\
  (racc + Qtrunc v = 0 \/ clear (gmin d) (gmax d) (w + inject_Z (g_rzp g)) (u50 * (Qabs w + Qabs (inject_Z (g_rzp g))))).
Definition steady_cell (l : lstm) (f c i g : Z) : Prop :=
  let fc := (inject_Z (f - l_forget_zp l) * l_M3 l * inject_Z (c - l_state_zp l))%Q in
  let ig := (inject_Z ((i - l_in_zp l) * (g - l_cellg_zp l)) * l_M4 l)%Q in
  let z := inject_Z (l_state_zp l) in
  Z.abs (f - l_forget_zp l) <= 2 ^ 53 /\ Z.abs (c - l_state_zp l) <= 2 ^ 53 /\ Z.abs ((i - l_in_zp l) * (g - l_cellg_zp l)) <= 2 ^ 53 /\
  (Qabs z + Qabs fc + Qabs ig <= inject_Z (2 ^ 61))%Q /\
  ((fc == 0 /\ ig == 0)%Q \/ clear (gmin (l_state_dtype l)) (gmax (l_state_dtype l)) (z + fc + ig) (u50 * (Qabs z + Qabs fc + Qabs ig))).
Definition steady_hidden (l : lstm) (o a : Z) : Prop :=
  let oa := (inject_Z ((o - l_out_zp l) * (a - l_act_zp l)) * l_M5 l)%Q in
  let z := inject_Z (l_hidden_zp l) in
  Z.abs ((o - l_out_zp l) * (a - l_act_zp l)) <= 2 ^ 53 /\ (Qabs z + Qabs oa <= inject_Z (2 ^ 61))%Q /\
  ((oa == 0)%Q \/ clear (gmin (l_hidden_dtype l)) (gmax (l_hidden_dtype l)) (z + oa) (u50 * (Qabs z + Qabs oa))).
(** One step from states h, c on input row x recording s. *)
Definition steady_step (l : lstm) (h c x : list Z) (s : step_rec) : Prop :=
  (forall g, In g [l_in l; l_forget l; l_cell l; l_out l] -> steady_gate g (l_cells l) (l_rec_dtype l) h x) /\
  forall j, (j < l_cells l)%nat ->
    let code k := nth j (nth k (s_gates s) []) 0 in
    steady_cell l (code 1%nat) (nth j c 0) (code 0%nat) (code 2%nat) /\ steady_hidden l (code 3%nat) (nth j (s_act s) 0).
Fixpoint steady_run (l : lstm) (h c : list (list Z)) (xs : list (list (list Z))) (recs : list (list step_rec)) : Prop :=
  match xs, recs with
  | x :: xs', s :: recs' =>
      (forall b, (b < length x)%nat -> steady_step l (brow h b) (brow c b) (nth b x []) (nth b s dstep)) /\
      steady_run l (map s_hidden s) (map s_cell s) xs' recs'
  | _, _ => True
  end.

Lemma Qtrunc_lt x z : 0 < z -> Qtrunc x < z -> (x < inject_Z z)%Q.
Proof.
  intros P H. destruct (Qlt_le_dec x 0) as [N|N].
  - eapply Qlt_trans; [exact N|]. apply (proj1 (Zlt_inj 0 z)). exact P.
  - destruct (proj1 (Qtrunc_bounds x) N) as [_ B]. eapply Qlt_le_trans; [exact B|]. change 1%Q with (inject_Z 1). rewrite <- inject_Z_plus. apply (proj1 (Zle_inj _ _)). lia.
Qed.
Lemma Qtrunc_ge x z : 0 < z -> z <= Qtrunc x -> (inject_Z z <= x)%Q.
Proof.
  intros P H. destruct (Qlt_le_dec x 0) as [N|N].
  - destruct (proj2 (Qtrunc_bounds x) N) as [_ B]. exfalso. assert (T : (inject_Z (Qtrunc x) < inject_Z 1)%Q) by (change (inject_Z 1) with 1%Q; lra).
    apply Zlt_inj in T. lia.
  - destruct (proj1 (Qtrunc_bounds x) N) as [B _]. eapply Qle_trans; [|exact B]. apply (proj1 (Zle_inj _ _)). lia.
Qed.
Lemma Qtrunc_gt_neg x z : z < 0 -> z < Qtrunc x -> (inject_Z z < x)%Q.
Proof.
  intros P H. destruct (Qlt_le_dec x 0) as [N|N].
  - destruct (proj2 (Qtrunc_bounds x) N) as [_ B]. eapply Qle_lt_trans; [|exact B]. change 1%Q with (inject_Z 1). unfold Qminus. rewrite <- inject_Z_opp, <- inject_Z_plus. apply (proj1 (Zle_inj _ _)). lia.
  - eapply Qlt_le_trans; [|exact N]. apply (proj1 (Zlt_inj z 0)). exact P.
Qed.
Lemma Qtrunc_le_neg x z : z < 0 -> Qtrunc x <= z -> (x <= inject_Z z)%Q.
Proof.
  intros P H. destruct (Qlt_le_dec x 0) as [N|N].
  - destruct (proj2 (Qtrunc_bounds x) N) as [B _]. eapply Qle_trans; [exact B|]. apply (proj1 (Zle_inj _ _)). lia.
  - destruct (proj1 (Qtrunc_bounds x) N) as [_ B]. exfalso. assert (T : (inject_Z (-1) < inject_Z (Qtrunc x))%Q) by (change (inject_Z (-1)) with (-1)%Q; lra).
    apply Zlt_inj in T. lia.
Qed.
(** truncation and clipping agree on two values with no integer code between them *)
Lemma trunc_between lo hi x y : lo <= hi -> clipZ lo hi (Qtrunc x) < clipZ lo hi (Qtrunc y) ->
  exists z, z <> 0 /\ lo <= z <= hi /\ (x <= inject_Z z <= y)%Q.
Proof.
  intros L H. unfold clipZ in H. set (b' := Z.min (Z.max (Qtrunc y) lo) hi) in *. set (a' := Z.min (Z.max (Qtrunc x) lo) hi) in *.
  destruct (Z_lt_le_dec 0 b') as [P|P].
  - exists b'. split; [lia|]. split; [unfold b'; lia|]. split.
    + apply Qlt_le_weak, Qtrunc_lt; [exact P|]. unfold a' in H. lia.
    + apply Qtrunc_ge; [exact P|]. unfold b' in *. lia.
  - exists a'. split; [lia|]. split; [unfold a'; lia|]. split.
    + apply Qtrunc_le_neg; [lia|]. unfold a' in *. lia.
    + apply Qlt_le_weak, Qtrunc_gt_neg; [lia|]. unfold b' in *. lia.
Qed.
Lemma trunc_clear lo hi x y m : lo <= hi -> (Qabs (y - x) <= m)%Q -> clear lo hi x m -> clipZ lo hi (Qtrunc y) = clipZ lo hi (Qtrunc x).
Proof.
  intros L E C. apply Qabs_Qle_condition in E.
  destruct (Z.lt_trichotomy (clipZ lo hi (Qtrunc y)) (clipZ lo hi (Qtrunc x))) as [H|[H|H]]; [|exact H|];
    exfalso; destruct (trunc_between _ _ _ _ L H) as (z & Z1 & Z2 & Z3 & Z4); specialize (C z Z1 Z2); apply Qlt_not_le in C; apply C;
    apply Qabs_Qle_condition; split; lra.
Qed.
Lemma to_i64_id x : (Qabs x <= inject_Z (2 ^ 62))%Q -> to_i64 x = Qtrunc x.
Proof.
  intros H. unfold to_i64, cast_i64. destruct (small_Q_i64 x H) as [A B].
  assert (R : - 2 ^ 63 <= Qtrunc x <= 2 ^ 63 - 1).
  { unfold Qtrunc. destruct (Qle_bool 0 x).
    - split; [rewrite <- (Qfloor_inject (- 2 ^ 63))|rewrite <- (Qfloor_inject (2 ^ 63 - 1))]; apply Qfloor_resp_le; assumption.
    - split; [rewrite <- (Qceiling_Z (- 2 ^ 63))|rewrite <- (Qceiling_Z (2 ^ 63 - 1))]; apply Qceiling_resp_le; assumption. }
  replace ((- 2 ^ 63 <=? Qtrunc x) && (Qtrunc x <=? 2 ^ 63 - 1)) with true; [reflexivity|].
  symmetry. apply andb_true_iff. split; apply Z.leb_le; lia.
Qed.
Lemma Qtrunc_inj z : Qtrunc (inject_Z z) = z.
Proof. unfold Qtrunc. destruct (Qle_bool 0 (inject_Z z)); [apply Qfloor_inject|apply Qceiling_Z]. Qed.
Lemma Qtrunc_mono x y : (x <= y)%Q -> Qtrunc x <= Qtrunc y.
Proof.
  intros H. destruct (Z_lt_le_dec (Qtrunc y) (Qtrunc x)) as [L|L]; [|exact L]. exfalso.
  set (lo := Qtrunc y) in *. set (hi := Qtrunc x) in *.
  assert (C : clipZ lo hi (Qtrunc y) < clipZ lo hi (Qtrunc x)) by (fold lo hi; unfold clipZ; lia).
  destruct (Z_lt_le_dec 0 hi) as [P|P].
  - pose proof (Qtrunc_ge x hi P ltac:(lia)) as A. pose proof (Qtrunc_lt y hi P L) as B. lra.
  - pose proof (Qtrunc_le_neg y lo ltac:(lia) ltac:(lia)) as A. pose proof (Qtrunc_gt_neg x lo ltac:(lia) L) as B. lra.
Qed.
(** clip then truncate = truncate then clip *)
Lemma trunc_clamp d v : int64_dtype d -> to_i64 (clampQ (gmin d) (gmax d) v) = clipZ (gmin d) (gmax d) (Qtrunc v).
Proof.
  intros (D1 & D2 & D3). assert (E : Qtrunc (clampQ (gmin d) (gmax d) v) = clipZ (gmin d) (gmax d) (Qtrunc v)).
  { unfold clampQ. destruct (Qlt_le_dec v (inject_Z (gmin d))) as [A|A]; [|destruct (Qlt_le_dec (inject_Z (gmax d)) v) as [B|B]].
    - rewrite Qtrunc_inj. apply Qlt_le_weak, Qtrunc_mono in A. rewrite Qtrunc_inj in A. unfold clipZ. lia.
    - rewrite Qtrunc_inj. apply Qlt_le_weak, Qtrunc_mono in B. rewrite Qtrunc_inj in B. unfold clipZ. lia.
    - apply Qtrunc_mono in A. apply Qtrunc_mono in B. rewrite Qtrunc_inj in A, B. rewrite clipZ_id by lia. reflexivity. }
  unfold to_i64. rewrite E. unfold cast_i64.
  replace ((- 2 ^ 63 <=? clipZ (gmin d) (gmax d) (Qtrunc v)) && (clipZ (gmin d) (gmax d) (Qtrunc v) <=? 2 ^ 63 - 1)) with true; [reflexivity|].
  symmetry. pose proof (clipZ_range (gmin d) (gmax d) (Qtrunc v) D2). apply andb_true_iff. split; apply Z.leb_le; lia.
Qed.
(** adding an exact zero is exact *)
Lemma add_zero_exact a x z : absn a x 0 -> (x == 0)%Q -> Z.abs z <= 2 ^ 53 ->
  (exists y, fadd a (f_of_Z z) = Fin y /\ (y == inject_Z z)%Q) /\ (exists y, fadd (f_of_Z z) a = Fin y /\ (y == inject_Z z)%Q).
Proof.
  intros (x' & -> & _ & EX) X0 HZ. destruct (f_of_Z_fin z HZ) as (q & -> & Q1). cbn [fadd].
  assert (X' : (x' == 0)%Q) by (apply Qabs_Qle_condition in EX; lra).
  assert (B : forall t, (t == inject_Z z)%Q -> exists y, rnd t = Fin y /\ (y == inject_Z z)%Q).
  { intros t Et. exists (fl64 t). split.
    - apply rnd_fin. rewrite Et. eapply Qle_trans; [apply (abs_inject z 53); [lia|exact HZ]|]. apply pow2_mono. lia.
    - unfold fl64. rewrite (fl_comp 53 (-1074) t (inject_Z z) Et). apply fl64_Z. exact HZ. }
  split; apply B; rewrite X', Q1; ring.
Qed.
(** the two builds agree on everything but the multipliers *)
Lemma gate_same input hidden gn g fg : build_gate input hidden gn = Ok g -> build_gate_f input hidden gn = Ok fg ->
  fg_kernel fg = g_kernel g /\ fg_rec fg = g_rec g /\ fg_bias fg = g_bias g /\ fg_rzp fg = g_rzp g /\ g_rzp g = zp0 (gn_radd gn) /\
  g_M1 g = M1q input hidden gn /\ g_M2 g = M2q hidden gn.
Proof.
  intros H1 H2. unfold build_gate in H1. unfold build_gate_f in H2.
  destruct (centred (gn_kernel gn)); [cbn [rbind] in H1, H2|discriminate]. destruct (centred (gn_rec gn)); [cbn [rbind] in H1, H2|discriminate].
  destruct (centred (gn_bias gn)); [cbn [rbind] in H1, H2|discriminate].
  destruct (py_div _ _) as [m1|] eqn:P1 in H1; [cbn [rbind] in H1|discriminate].
  destruct (py_div _ _) as [m2|] eqn:P2 in H1; [cbn [rbind] in H1|discriminate].
  destruct (py_div_f _ _) as [n1|] in H2; [cbn [rbind] in H2|discriminate].
  destruct (py_div_f _ _) as [n2|] in H2; [cbn [rbind] in H2|discriminate].
  apply py_div_inv in P1 as (_ & P1). apply py_div_inv in P2 as (_ & P2).
  match type of H1 with Ok ?t = _ => assert (E1 : g = t) by congruence end. match type of H2 with Ok ?t = _ => assert (E2 : fg = t) by congruence end.
  rewrite E1, E2. cbn. rewrite P1, P2. repeat split.
Qed.
Lemma steady_rows input hidden gn g fg n d h x b r : build_gate input hidden gn = Ok g -> build_gate_f input hidden gn = Ok fg ->
  fair (n_scale (gn_kernel gn)) -> fair (n_scale input) -> fair (n_scale (gn_rec gn)) -> fair (n_scale hidden) -> fair (n_scale (gn_radd gn)) ->
  exact_codes d -> Z.abs (zp0 (gn_radd gn)) <= 2 ^ 53 -> steady_gate g n d h x ->
  bias_add_row n g x = Ok b -> recurrent_row n d g h b = Ok r -> bias_add_row_f n fg x = Ok b /\ recurrent_row_f n d fg h b = Ok r.
Proof.
  intros B1 B2 Fk Fi Fr Fh Fa Dx Hz St Eb Er.
  destruct (gate_same _ _ _ _ _ B1 B2) as (K & R & Bi & RZ & RZ0 & M1 & M2).
  pose proof (exact_i64 _ Dx) as D64.
  unfold bias_add_row in Eb. unfold recurrent_row in Er. unfold bias_add_row_f, recurrent_row_f. rewrite K, R, Bi.
  unfold vecmat in Eb, Er |- *. destruct (length x =? length (g_kernel g))%nat; [|discriminate]. destruct (length h =? length (g_rec g))%nat; [|discriminate].
  cbn [rbind] in Eb, Er |- *.
  match type of Eb with Ok ?t = _ => assert (Eb' : b = t) by congruence end. match type of Er with Ok ?t = _ => assert (Er' : r = t) by congruence end. clear Eb Er.
  assert (NM : forall (F : nat -> Z) j, (j < n)%nat -> nth j (map F (seq 0 n)) 0 = F j).
  { intros F j Hj. rewrite (nth_indep _ 0 (F 0%nat)) by (now rewrite map_length, seq_length). rewrite map_nth. now rewrite seq_nth by exact Hj. }
  assert (BA : forall j, (j < n)%nat -> nth j b 0 = Qtrunc (g_M1 g * inject_Z (dot_col j x (g_kernel g) + nth j (g_bias g) 0%Z))).
  { intros j Hj. destruct (St j Hj) as (S1 & S2 & S3 & S4 & _). rewrite Eb', NM, NM by exact Hj. fold (dot_col j x (g_kernel g)).
    rewrite (i64_id (dot_col j x (g_kernel g))) by lia. rewrite i64_id by lia. apply to_i64_id. eapply Qle_trans; [exact S4|]. vm_compute; discriminate. }
  assert (TB : forall v, (Qabs v <= inject_Z (2 ^ 51 + 2))%Q -> Z.abs (Qtrunc v) <= 2 ^ 52).
  { intros v Hv. apply Qabs_Qle_condition in Hv as [V1 V2]. rewrite <- inject_Z_opp in V1. apply Qtrunc_mono in V1. apply Qtrunc_mono in V2. rewrite Qtrunc_inj in V1, V2. lia. }
  split; f_equal.
  - rewrite Eb'. apply map_ext_in. intros j Hj. apply in_seq in Hj. assert (Hj' : (j < n)%nat) by lia. destruct (St j Hj') as (S1 & S2 & S3 & S4 & S5 & _).
    rewrite !NM by exact Hj'. fold (dot_col j x (g_kernel g)). rewrite (i64_id (dot_col j x (g_kernel g))) by lia. rewrite i64_id by lia.
    set (kacc := dot_col j x (g_kernel g) + nth j (g_bias g) 0) in *.
    destruct (bias_value input hidden gn fg B2 Fk Fi Fr Fh Fa kacc ltac:(unfold kacc; lia)) as (y & Y1 & Y2). rewrite Y1. cbn [fcast_i64].
    rewrite <- M1 in Y2. set (v := (g_M1 g * inject_Z kacc)%Q) in *.
    assert (Y3 : (Qabs (y - v) <= u50 * Qabs v)%Q). { eapply Qle_trans; [exact Y2|]. apply Qmult_le_compat_r; [vm_compute; discriminate|apply Qabs_nonneg]. }
    assert (U : (u50 * Qabs v <= 2)%Q).
    { apply Qle_trans with (u50 * inject_Z (2 ^ 51))%Q; [rewrite !(Qmult_comm u50); apply Qmult_le_compat_r; [exact S4|discriminate]|vm_compute; discriminate]. }
    pose proof (abs_le_of _ _ _ Y3) as YB. assert (YB' : (Qabs y <= inject_Z (2 ^ 51 + 2))%Q) by (rewrite inject_Z_plus; change (inject_Z 2) with 2%Q; lra).
    assert (VB' : (Qabs v <= inject_Z (2 ^ 51 + 2))%Q) by (rewrite inject_Z_plus; change (inject_Z 2) with 2%Q; lra).
    rewrite !to_i64_id; [|eapply Qle_trans; [exact VB'|vm_compute; discriminate]|eapply Qle_trans; [exact YB'|vm_compute; discriminate]].
    pose proof (trunc_clear (- 2 ^ 52) (2 ^ 52) v y _ ltac:(lia) Y3 S5) as T. pose proof (TB _ YB') as TY. pose proof (TB _ VB') as TV.
    rewrite !clipZ_id in T by lia. exact T.
  - rewrite Er'. apply map_ext_in. intros j Hj. apply in_seq in Hj. assert (Hj' : (j < n)%nat) by lia. destruct (St j Hj') as (S1 & S2 & S3 & S4 & S5 & S6).
    rewrite !NM by exact Hj'. rewrite BA by exact Hj'. fold (dot_col j h (g_rec g)). rewrite (i64_id (dot_col j h (g_rec g))) by lia.
    set (v := (g_M1 g * inject_Z (dot_col j x (g_kernel g) + nth j (g_bias g) 0%Z))%Q) in *.
    assert (VB' : (Qabs v <= inject_Z (2 ^ 51 + 2))%Q) by (rewrite inject_Z_plus; change (inject_Z 2) with 2%Q; lra).
    pose proof (TB _ VB') as TV. set (S := dot_col j h (g_rec g) + Qtrunc v) in *. assert (SB : Z.abs S <= 2 ^ 53) by (unfold S; lia). rewrite (i64_id S) by lia.
    rewrite clipQ_clampQ, (trunc_clamp d _ D64).
    destruct S6 as [S6|S6].
    + destruct (gate_mults input hidden gn fg B2 Fk Fi Fr Fh Fa) as (_ & N2 & _).
      destruct (near_mulZ _ _ (4 * u53) S ltac:(split; discriminate) N2 SB (big_ok 600 _ S ltac:(lia) (M2_range hidden gn Fr Fh Fa) ltac:(lia))) as (N & _).
      assert (E0 : (M2q hidden gn * inject_Z S == 0)%Q) by (rewrite S6; change (inject_Z 0) with 0%Q; ring).
      assert (N0 : absn (fmul (f_of_Z S) (fg_M2 fg)) (M2q hidden gn * inject_Z S) 0).
      { destruct N as (y & Y1 & Y2 & Y3). exists y. split; [exact Y1|]. split; [exact Y2|]. rewrite E0 in Y3 |- *. change (Qabs 0) with 0%Q in Y3. rewrite Qmult_0_r in Y3. exact Y3. }
      destruct (proj1 (add_zero_exact _ _ (fg_rzp fg) N0 E0 ltac:(rewrite RZ, RZ0; exact Hz))) as (y & Y1 & Y2). rewrite Y1, fclip_clamp by apply Dx. cbn [fcast_i64].
      rewrite (trunc_clamp d _ D64). f_equal. apply Qtrunc_comp. rewrite Y2, RZ, S6. change (inject_Z 0) with 0%Q. ring.
    + destruct (pre_value input hidden gn fg B2 Fk Fi Fr Fh Fa S SB Hz) as (y & Y1 & Y2). rewrite Y1, fclip_clamp by apply Dx. cbn [fcast_i64].
      rewrite (trunc_clamp d _ D64). rewrite <- M2, <- RZ0 in Y2. apply (trunc_clear _ _ _ _ (u50 * (Qabs (inject_Z S * g_M2 g) + Qabs (inject_Z (g_rzp g))))); [apply Dx| |exact S6].
      eapply Qle_trans; [exact Y2|]. pose proof (Qabs_nonneg (inject_Z S * g_M2 g)) as P1. pose proof (Qabs_nonneg (inject_Z (g_rzp g))) as P2.
      assert (T1 : (8 * u53 * Qabs (inject_Z S * g_M2 g) <= u50 * Qabs (inject_Z S * g_M2 g))%Q) by (apply Qmult_le_compat_r; [vm_compute; discriminate|exact P1]).
      assert (T2 : (u53 * Qabs (inject_Z (g_rzp g)) <= u50 * Qabs (inject_Z (g_rzp g)))%Q) by (apply Qmult_le_compat_r; [vm_compute; discriminate|exact P2]).
      lra.
Qed.

(** Everything one exported layer needs: fair scales, zero points and pre-activation codes exact as doubles. *)
Definition fair_gate (g : gate_nodes) : Prop :=
  fair (n_scale (gn_kernel g)) /\ fair (n_scale (gn_rec g)) /\ fair (n_scale (gn_radd g)) /\ fair (n_scale (gn_out g)) /\ Z.abs (zp0 (gn_radd g)) <= 2 ^ 53.
Record fair_layer (input hidden state act_out : node) (gi gf gc go : gate_nodes) : Prop := {
  fy_input : fair (n_scale input); fy_hidden : fair (n_scale hidden); fy_state : fair (n_scale state); fy_act : fair (n_scale act_out);
  fy_hz : Z.abs (zp0 hidden) <= 2 ^ 53; fy_sz : Z.abs (zp0 state) <= 2 ^ 53;
  fy_gates : forall g, In g [gi; gf; gc; go] -> fair_gate g;
  fy_pre : exact_codes (n_dtype (gn_radd gi));
  fy_sd : gmin (n_dtype act_out) <= gmax (n_dtype act_out); fy_hd : gmin (n_dtype hidden) <= gmax (n_dtype hidden) }.

Section Steady.
  Variables (input hidden state act_in act_out : node) (gi gf gc go : gate_nodes) (sq : bool) (l : lstm) (lf : flstm).
  Hypothesis Hb : lstm_build input hidden state act_in act_out gi gf gc go sq = Ok l.
  Hypothesis Hf : lstm_build_f input hidden state act_in act_out gi gf gc go sq = Ok lf.
  Hypothesis FY : fair_layer input hidden state act_out gi gf gc go.

  Record same : Prop := {
    sm_in : build_gate input hidden gi = Ok (l_in l); sm_forget : build_gate input hidden gf = Ok (l_forget l);
    sm_cell : build_gate input hidden gc = Ok (l_cell l); sm_out : build_gate input hidden go = Ok (l_out l);
    sm_M3 : l_M3 l = n_scale (gn_out gf);
    sm_M4 : l_M4 l = (n_scale (gn_out gi) * n_scale (gn_out gc) / n_scale state)%Q;
    sm_M5 : l_M5 l = (n_scale (gn_out go) * n_scale act_out / n_scale hidden)%Q;
    sm_zps : l_hidden_zp l = zp0 hidden /\ l_in_zp l = zp0 (gn_out gi) /\ l_forget_zp l = zp0 (gn_out gf) /\ l_cellg_zp l = zp0 (gn_out gc) /\
      l_out_zp l = zp0 (gn_out go) /\ l_state_zp l = zp0 state /\ l_act_zp l = zp0 act_out;
    sm_dts : l_rec_dtype l = n_dtype (gn_radd gi) /\ l_state_dtype l = n_dtype act_out /\ l_hidden_dtype l = n_dtype hidden;
    sm_luts : fl_in_lut lf = l_in_lut l /\ fl_forget_lut lf = l_forget_lut l /\ fl_cell_lut lf = l_cell_lut l /\ fl_out_lut lf = l_out_lut l /\ fl_state_lut lf = l_state_lut l;
    sm_izp : fl_input_zp lf = l_input_zp l; sm_cells : fl_cells lf = l_cells l; sm_seq : fl_seq lf = l_seq l }.
  Lemma builds_same : same.
  Proof.
    pose proof (build_f_fields _ _ _ _ _ _ _ _ _ _ _ Hf) as (FG & _).
    unfold lstm_build in Hb. unfold lstm_build_f in Hf. cbv zeta in Hb, Hf.
    destruct (build_gate input hidden gi) as [a1|] eqn:A1; [|discriminate Hb]. destruct (build_gate input hidden gf) as [a2|] eqn:A2; [|discriminate Hb].
    destruct (build_gate input hidden gc) as [a3|] eqn:A3; [|discriminate Hb]. destruct (build_gate input hidden go) as [a4|] eqn:A4; [|discriminate Hb]. cbn [rbind] in Hb.
    destruct (build_gate_f input hidden gi) as [b1|] eqn:B1; [|discriminate Hf]. destruct (build_gate_f input hidden gf) as [b2|] eqn:B2; [|discriminate Hf].
    destruct (build_gate_f input hidden gc) as [b3|] eqn:B3; [|discriminate Hf]. destruct (build_gate_f input hidden go) as [b4|] eqn:B4; [|discriminate Hf]. cbn [rbind] in Hf.
    destruct (py_div (n_scale (gn_out gi) * n_scale (gn_out gc)) (n_scale state)) as [m4|] eqn:P4; [|discriminate Hb]. cbn [rbind] in Hb.
    destruct (py_div (n_scale (gn_out go) * n_scale act_out) (n_scale hidden)) as [m5|] eqn:P5; [|discriminate Hb]. cbn [rbind] in Hb.
    destruct (py_div_f (fmul (n_scale_f (gn_out gi)) (n_scale_f (gn_out gc))) (n_scale_f state)) as [n4|]; [|discriminate Hf]. cbn [rbind] in Hf.
    destruct (py_div_f (fmul (n_scale_f (gn_out go)) (n_scale_f act_out)) (n_scale_f hidden)) as [n5|]; [|discriminate Hf]. cbn [rbind] in Hf.
    destruct (lut_from_node (n_lut (gn_in gi))) as [u1|]; [|discriminate Hb]. destruct (lut_from_node (n_lut (gn_in gf))) as [u2|]; [|discriminate Hb].
    destruct (lut_from_node (n_lut (gn_in gc))) as [u3|]; [|discriminate Hb]. destruct (lut_from_node (n_lut (gn_in go))) as [u4|]; [|discriminate Hb].
    destruct (lut_from_node (n_lut act_in)) as [u5|]; [|discriminate Hb]. cbn [rbind] in Hb, Hf.
    destruct (fia_init (n_scale (gn_out gf))); [|discriminate Hb]. cbn [rbind] in Hb. destruct (fia_init m4); [|discriminate Hb]. cbn [rbind] in Hb. destruct (fia_init m5); [|discriminate Hb]. cbn [rbind] in Hb.
    destruct (fia_init_f (n_scale_f (gn_out gf))); [|discriminate Hf]. cbn [rbind] in Hf. destruct (fia_init_f n4); [|discriminate Hf]. cbn [rbind] in Hf. destruct (fia_init_f n5); [|discriminate Hf]. cbn [rbind] in Hf.
    match type of Hb with Ok ?t = _ => assert (E1 : l = t) by congruence end. match type of Hf with Ok ?t = _ => assert (E2 : lf = t) by congruence end.
    apply py_div_inv in P4 as (_ & P4). apply py_div_inv in P5 as (_ & P5).
    destruct (gate_same _ _ _ _ _ A1 B1) as (K1 & _).
    constructor; rewrite ?E1, ?E2; cbn; auto 10. now rewrite K1.
  Qed.
  Lemma steady_cell_eq f c i g : steady_cell l f c i g -> cell1_f lf f c i g = cell1 l f c i g.
  Proof.
    intros (Z2 & Z3 & Z4 & Sm & St). pose proof builds_same as SM. destruct (sm_zps SM) as (_ & Q2 & Q3 & Q4 & _ & Q6 & _). destruct (sm_dts SM) as (_ & Q8 & _).
    destruct (build_f_fields _ _ _ _ _ _ _ _ _ _ _ Hf) as (_ & _ & _ & _ & M3 & M4 & _ & (_ & E1 & E2 & E3 & _ & E5 & _) & _ & E7 & _).
    unfold cell1_f, cell1. rewrite E1, E2, E3, E5, E7, M3, Q2, Q3, Q4, Q6, Q8, (sm_M3 SM), (sm_M4 SM). rewrite Q2, Q3, Q4, Q6, Q8, (sm_M3 SM), (sm_M4 SM) in *.
    pose proof (fy_gates _ _ _ _ _ _ _ _ FY gi ltac:(cbn; auto)) as (_ & _ & _ & Fi & _). pose proof (fy_gates _ _ _ _ _ _ _ _ FY gf ltac:(cbn; auto)) as (_ & _ & _ & Ff & _).
    pose proof (fy_gates _ _ _ _ _ _ _ _ FY gc ltac:(cbn; auto)) as (_ & _ & _ & Fc & _). pose proof (fy_state _ _ _ _ _ _ _ _ FY) as Fs. pose proof (fy_sz _ _ _ _ _ _ _ _ FY) as Z1.
    unfold n_scale_f in *. pose proof (mult2 _ _ _ _ Fi Fc Fs M4) as N4.
    assert (R4 : posrange 600 (n_scale (gn_out gi) * n_scale (gn_out gc) / n_scale state)) by (apply (posrange_div 400 200); [apply (posrange_mul 200 200)|]; apply fair_range; assumption).
    set (s := n_scale (gn_out gf)) in *. set (M := (n_scale (gn_out gi) * n_scale (gn_out gc) / n_scale state)%Q) in *.
    set (n := (i - zp0 (gn_out gi)) * (g - zp0 (gn_out gc))) in *. set (F := f - zp0 (gn_out gf)) in *. set (C := c - zp0 state) in *.
    set (fc := (inject_Z F * s * inject_Z C)%Q) in *. set (ig := (inject_Z n * M)%Q) in *. set (z := zp0 state) in *.
    destruct (cell_value _ _ 600 s z F C n N4 ltac:(lia) R4 Ff Z1 Z2 Z3 Z4) as (y & Y1 & Y2). fold fc ig in Y2.
    set (mag := (Qabs (inject_Z z) + Qabs fc + Qabs ig)%Q) in *.
    assert (M0 : (0 <= mag)%Q) by (unfold mag; pose proof (Qabs_nonneg (inject_Z z)); pose proof (Qabs_nonneg fc); pose proof (Qabs_nonneg ig); lra).
    assert (Y3 : (Qabs (y - (inject_Z z + fc + ig)) <= u50 * mag)%Q) by (eapply Qle_trans; [exact Y2|]; apply Qmult_le_compat_r; [vm_compute; discriminate|exact M0]).
    assert (U1 : (u50 * mag <= mag)%Q) by (rewrite <- (Qmult_1_l mag) at 2; apply Qmult_le_compat_r; [discriminate|exact M0]).
    assert (CB : (Qabs (inject_Z z + fc + ig) <= mag)%Q).
    { unfold mag. eapply Qle_trans; [apply Qabs_triangle|]. pose proof (Qabs_triangle (inject_Z z) fc). lra. }
    assert (T62 : (inject_Z (2 ^ 62) == 2 * inject_Z (2 ^ 61))%Q) by reflexivity.
    assert (YB : (Qabs y <= inject_Z (2 ^ 62))%Q) by (pose proof (abs_le_of _ _ _ Y3); rewrite T62; lra).
    destruct St as [[S1 S2]|St].
    - assert (ZF : exists y0, fadd (fadd (f_of_Z z) (fmul (fmul (f_of_Z F) (Fin s)) (f_of_Z C))) (fmul (f_of_Z n) (fl_M4 lf)) = Fin y0 /\ (y0 == inject_Z z)%Q).
      { destruct (near_mulZ (Fin s) s 0 F ltac:(split; discriminate) (near_scale s (proj1 Ff)) Z2 (big_ok 200 _ F ltac:(lia) (fair_range _ Ff) ltac:(lia))) as (N2 & _).
        assert (E0 : (s * inject_Z F * inject_Z C == 0)%Q) by (rewrite <- S1; unfold fc; ring).
        destruct (near_mulZ _ _ (0 + 2 * u53) C ltac:(split; discriminate) N2 Z3) as (_ & N3); [rewrite E0; discriminate|].
        assert (N30 : absn (fmul (fmul (f_of_Z F) (Fin s)) (f_of_Z C)) (s * inject_Z F * inject_Z C) 0).
        { destruct N3 as (v & V1 & V2 & V3). exists v. split; [exact V1|]. split; [exact V2|]. rewrite E0 in V3 |- *. change (Qabs 0) with 0%Q in V3. rewrite Qmult_0_r in V3. exact V3. }
        destruct (proj2 (add_zero_exact _ _ z N30 E0 Z1)) as (y1 & W1 & W2). rewrite W1.
        assert (E00 : (M * inject_Z n == 0)%Q) by (rewrite <- S2; unfold ig; ring).
        destruct (near_mulZ _ _ (4 * u53) n ltac:(split; discriminate) N4 Z4) as (N5 & _); [rewrite E00; discriminate|].
        destruct N5 as (v & V1 & V2 & V3). rewrite V1. rewrite E00 in V3. change (Qabs 0) with 0%Q in V3. rewrite Qmult_0_r in V3. apply Qabs_Qle_condition in V3.
        assert (V0 : (v == 0)%Q) by lra. cbn [fadd]. exists (fl64 (y1 + v)). 
        assert (Ev : (y1 + v == inject_Z z)%Q) by (rewrite W2, V0; ring). split.
        - apply rnd_fin. rewrite Ev. eapply Qle_trans; [apply (abs_inject z 53); [lia|exact Z1]|]. apply pow2_mono. lia.
        - unfold fl64. rewrite (fl_comp 53 (-1074) _ _ Ev). apply fl64_Z. exact Z1. }
      destruct ZF as (y0 & W1 & W2). rewrite W1. cbn [fcast_i64]. f_equal. unfold to_i64. f_equal. apply Qtrunc_comp. rewrite W2, S1, S2. ring.
    - rewrite Y1. cbn [fcast_i64]. rewrite !to_i64_id; [|rewrite T62; lra|exact YB].
      apply (trunc_clear _ _ _ _ (u50 * mag)); [apply (fy_sd _ _ _ _ _ _ _ _ FY)|exact Y3|exact St].
  Qed.
  Lemma steady_hidden_eq o a : steady_hidden l o a -> hidden1_f lf o a = hidden1 l o a.
  Proof.
    intros (Z2 & Sm & St). pose proof builds_same as SM. destruct (sm_zps SM) as (Q1 & _ & _ & _ & Q5 & _ & Q7). destruct (sm_dts SM) as (_ & _ & Q8).
    destruct (build_f_fields _ _ _ _ _ _ _ _ _ _ _ Hf) as (_ & _ & _ & _ & _ & _ & M5 & (E1 & _ & _ & _ & E4 & _ & E6) & _ & _ & E7).
    unfold hidden1_f, hidden1. rewrite E1, E4, E6, E7, Q1, Q5, Q7, Q8, (sm_M5 SM). rewrite Q1, Q5, Q7, Q8, (sm_M5 SM) in *.
    pose proof (fy_gates _ _ _ _ _ _ _ _ FY go ltac:(cbn; auto)) as (_ & _ & _ & Fo & _). pose proof (fy_hidden _ _ _ _ _ _ _ _ FY) as Fh. pose proof (fy_act _ _ _ _ _ _ _ _ FY) as Fa.
    pose proof (fy_hz _ _ _ _ _ _ _ _ FY) as Z1.
    unfold n_scale_f in *. pose proof (mult2 _ _ _ _ Fo Fa Fh M5) as N5.
    assert (R5 : posrange 600 (n_scale (gn_out go) * n_scale act_out / n_scale hidden)) by (apply (posrange_div 400 200); [apply (posrange_mul 200 200)|]; apply fair_range; assumption).
    set (M := (n_scale (gn_out go) * n_scale act_out / n_scale hidden)%Q) in *. set (n := (o - zp0 (gn_out go)) * (a - zp0 act_out)) in *.
    set (oa := (inject_Z n * M)%Q) in *. set (z := zp0 hidden) in *.
    destruct (fma_value _ _ 600 z n N5 ltac:(lia) R5 Z1 Z2) as (y & Y1 & Y2). fold oa in Y2. set (mag := (Qabs (inject_Z z) + Qabs oa)%Q) in *.
    assert (M0 : (0 <= mag)%Q) by (unfold mag; pose proof (Qabs_nonneg (inject_Z z)); pose proof (Qabs_nonneg oa); lra).
    assert (Y3 : (Qabs (y - (inject_Z z + oa)) <= u50 * mag)%Q) by (eapply Qle_trans; [exact Y2|]; apply Qmult_le_compat_r; [vm_compute; discriminate|exact M0]).
    assert (U1 : (u50 * mag <= mag)%Q) by (rewrite <- (Qmult_1_l mag) at 2; apply Qmult_le_compat_r; [discriminate|exact M0]).
    assert (CB : (Qabs (inject_Z z + oa) <= mag)%Q) by apply Qabs_triangle.
    assert (T62 : (inject_Z (2 ^ 62) == 2 * inject_Z (2 ^ 61))%Q) by reflexivity.
    assert (YB : (Qabs y <= inject_Z (2 ^ 62))%Q) by (pose proof (abs_le_of _ _ _ Y3); rewrite T62; lra).
    destruct St as [S1|St].
    - assert (E00 : (M * inject_Z n == 0)%Q) by (rewrite <- S1; unfold oa; ring).
      destruct (near_mulZ _ _ (4 * u53) n ltac:(split; discriminate) N5 Z2) as (N6 & _); [rewrite E00; discriminate|].
      assert (N60 : absn (fmul (f_of_Z n) (fl_M5 lf)) (M * inject_Z n) 0).
      { destruct N6 as (v & V1 & V2 & V3). exists v. split; [exact V1|]. split; [exact V2|]. rewrite E00 in V3 |- *. change (Qabs 0) with 0%Q in V3. rewrite Qmult_0_r in V3. exact V3. }
      destruct (proj2 (add_zero_exact _ _ z N60 E00 Z1)) as (y0 & W1 & W2). rewrite W1. cbn [fcast_i64]. f_equal. unfold to_i64. f_equal. apply Qtrunc_comp. rewrite W2, S1. ring.
    - rewrite Y1. cbn [fcast_i64]. rewrite !to_i64_id; [|rewrite T62; lra|exact YB].
      apply (trunc_clear _ _ _ _ (u50 * mag)); [apply (fy_hd _ _ _ _ _ _ _ _ FY)|exact Y3|exact St].
  Qed.
  Lemma steady_step_eq h c x s : step_row l h c x = Ok s -> steady_step l h c x s -> step_row_f lf h c x = Ok s.
  Proof.
    intros H [SG SC]. pose proof builds_same as SM. pose proof (build_f_fields _ _ _ _ _ _ _ _ _ _ _ Hf) as (G1 & G2 & G3 & G4 & _ & _ & _ & _ & RD & _ & _).
    destruct (sm_luts SM) as (L1 & L2 & L3 & L4 & L5). destruct (sm_dts SM) as (D1 & _ & _).
    unfold step_row in H. unfold step_row_f. cbv zeta in H |- *. rewrite (sm_cells SM), L1, L2, L3, L4, L5, RD, <- D1.
    set (n := l_cells l) in *. set (d := l_rec_dtype l) in *.
    destruct (bias_add_row n (l_in l) x) as [bi|] eqn:B1; [|discriminate H]. destruct (bias_add_row n (l_forget l) x) as [bf|] eqn:B2; [|discriminate H].
    destruct (bias_add_row n (l_cell l) x) as [bc|] eqn:B3; [|discriminate H]. destruct (bias_add_row n (l_out l) x) as [bo|] eqn:B4; [|discriminate H]. cbn [rbind] in H.
    destruct (recurrent_row n d (l_in l) h bi) as [ri|] eqn:R1; [|discriminate H]. destruct (recurrent_row n d (l_forget l) h bf) as [rf|] eqn:R2; [|discriminate H].
    destruct (recurrent_row n d (l_cell l) h bc) as [rc|] eqn:R3; [|discriminate H]. destruct (recurrent_row n d (l_out l) h bo) as [ro|] eqn:R4; [|discriminate H]. cbn [rbind] in H.
    assert (ROW : forall gn g fg b r, In gn [gi; gf; gc; go] -> In g [l_in l; l_forget l; l_cell l; l_out l] -> build_gate input hidden gn = Ok g -> build_gate_f input hidden gn = Ok fg ->
      bias_add_row n g x = Ok b -> recurrent_row n d g h b = Ok r -> bias_add_row_f n fg x = Ok b /\ recurrent_row_f n d fg h b = Ok r).
    { intros gn g fg b r I1 I2 Bg Bf Eb Er. destruct (fy_gates _ _ _ _ _ _ _ _ FY gn I1) as (F1 & F2 & F3 & _ & F5).
      apply (steady_rows input hidden gn g fg n d h x b r Bg Bf F1 (fy_input _ _ _ _ _ _ _ _ FY) F2 (fy_hidden _ _ _ _ _ _ _ _ FY) F3); auto.
      rewrite D1. apply (fy_pre _ _ _ _ _ _ _ _ FY). }
    destruct (ROW gi (l_in l) _ _ _ ltac:(cbn; auto) ltac:(cbn; auto) (sm_in SM) G1 B1 R1) as [-> T1]. cbn [rbind].
    destruct (ROW gf (l_forget l) _ _ _ ltac:(cbn; auto) ltac:(cbn; auto) (sm_forget SM) G2 B2 R2) as [-> T2]. cbn [rbind].
    destruct (ROW gc (l_cell l) _ _ _ ltac:(cbn; auto) ltac:(cbn; auto) (sm_cell SM) G3 B3 R3) as [-> T3]. cbn [rbind].
    destruct (ROW go (l_out l) _ _ _ ltac:(cbn; auto) ltac:(cbn; auto) (sm_out SM) G4 B4 R4) as [-> T4]. cbn [rbind].
    rewrite T1. cbn [rbind]. rewrite T2. cbn [rbind]. rewrite T3. cbn [rbind]. rewrite T4. cbn [rbind].
    destruct (lut_row (l_in_lut l) ri) as [ai|]; [|discriminate H]. destruct (lut_row (l_forget_lut l) rf) as [af|]; [|discriminate H].
    destruct (lut_row (l_cell_lut l) rc) as [ac|]; [|discriminate H]. destruct (lut_row (l_out_lut l) ro) as [ao|]; [|discriminate H]. cbn [rbind] in H |- *.
    destruct (lut_row (l_state_lut l) _) as [aa|] eqn:AA in H; [|discriminate H]. cbn [rbind] in H.
    match type of H with Ok ?t = _ => assert (E : s = t) by congruence end. rewrite E in SC. cbn [s_gates s_act nth] in SC.
    assert (CE : map (fun j => cell1_f lf (nth j af 0) (nth j c 0) (nth j ai 0) (nth j ac 0)) (seq 0 n) = map (fun j => cell1 l (nth j af 0) (nth j c 0) (nth j ai 0) (nth j ac 0)) (seq 0 n)).
    { apply map_ext_in. intros j Hj. apply in_seq in Hj. apply steady_cell_eq. apply (SC j ltac:(lia)). }
    rewrite CE, AA. cbn [rbind]. rewrite E. f_equal. f_equal.
    apply map_ext_in. intros j Hj. apply in_seq in Hj. apply steady_hidden_eq. apply (SC j ltac:(lia)).
  Qed.
  Lemma mapM_steady h c : forall x k s, mapM (fun p => step_row l (brow h (fst p)) (brow c (fst p)) (snd p)) (combine (seq k (length x)) x) = Ok s ->
    (forall b, (b < length x)%nat -> steady_step l (brow h (k + b)) (brow c (k + b)) (nth b x []) (nth b s dstep)) ->
    mapM (fun p => step_row_f lf (brow h (fst p)) (brow c (fst p)) (snd p)) (combine (seq k (length x)) x) = Ok s.
  Proof.
    induction x as [|r x IH]; intros k s H SS; [exact H|]. cbn [length seq combine mapM] in H |- *. cbn [fst snd] in H |- *.
    destruct (step_row l (brow h k) (brow c k) r) as [s0|] eqn:E0; [|discriminate H]. cbn [rbind] in H.
    destruct (mapM _ _) as [ss|] eqn:E1 in H; [|discriminate H]. cbn [rbind] in H. assert (Es : s = s0 :: ss) by congruence. rewrite Es in SS |- *.
    rewrite (steady_step_eq _ _ _ _ E0).
    - cbn [rbind]. rewrite (IH (S k) ss E1); [reflexivity|]. intros b Hb'. specialize (SS (S b) ltac:(cbn; lia)). cbn [nth] in SS. now rewrite Nat.add_succ_r in SS.
    - specialize (SS 0%nat ltac:(cbn; lia)). cbn [nth] in SS. now rewrite Nat.add_0_r in SS.
  Qed.
  Lemma steady_run_eq : forall xs h c recs, run_steps l h c xs = Ok recs -> steady_run l h c xs recs -> run_steps_f lf h c xs = Ok recs.
  Proof.
    induction xs as [|x xs IH]; intros h c recs H SR; [exact H|]. cbn [run_steps run_steps_f] in *.
    destruct (step_batch l h c x) as [s|] eqn:E0; [|discriminate H]. cbn [rbind] in H.
    destruct (run_steps l (map s_hidden s) (map s_cell s) xs) as [ss|] eqn:E1; [|discriminate H]. cbn [rbind] in H. assert (Er : recs = s :: ss) by congruence. rewrite Er in SR |- *.
    destruct SR as [S1 S2]. assert (SB : step_batch_f lf h c x = Ok s).
    { unfold step_batch in E0. unfold step_batch_f. rewrite (sm_cells builds_same). destruct ((length x =? 0)%nat || (l_cells l =? 0)%nat); [discriminate|].
      apply (mapM_steady h c x 0 s E0). exact S1. }
    rewrite SB. cbn [rbind]. rewrite (IH _ _ _ E1 S2). reflexivity.
  Qed.
End Steady.

(** A run whose truncated values stay clear of the integers gives in binary64 exactly the codes of exact arithmetic. *)
Theorem C87_steady_run : forall input hidden state act_in act_out gi gf gc go sq l lf T samples o recs,
  lstm_build input hidden state act_in act_out gi gf gc go sq = Ok l ->
  lstm_build_f input hidden state act_in act_out gi gf gc go sq = Ok lf ->
  fair_layer input hidden state act_out gi gf gc go ->
  lstm_infer l T samples = Ok (o, recs) ->
  let z := [repeat 0 (l_cells l)] in
  steady_run l z z (timesteps T (l_input_zp l) samples) recs ->
  lstm_infer_f lf T samples = Ok (o, recs).
Proof.
  intros input hidden state act_in act_out gi gf gc go sq l lf T samples o recs Hb Hf FY H z SR.
  pose proof (builds_same _ _ _ _ _ _ _ _ _ _ _ _ Hb Hf) as SM.
  unfold lstm_infer in H. unfold lstm_infer_f. rewrite (sm_cells _ _ _ _ _ _ _ _ _ _ SM), (sm_izp _ _ _ _ _ _ _ _ _ _ SM), (sm_seq _ _ _ _ _ _ _ _ _ _ SM). fold z in H |- *.
  destruct (run_steps l z z (timesteps T (l_input_zp l) samples)) as [ss|] eqn:E; [|discriminate H]. cbn [rbind] in H.
  assert (ER : ss = recs).
  { destruct (map (map s_hidden) ss); [discriminate H|]. congruence. }
  rewrite <- ER in SR. rewrite (steady_run_eq _ _ _ _ _ _ _ _ _ _ _ _ Hb Hf FY _ _ _ _ E SR). cbn [rbind]. exact H.
Qed.
(** Whatever the values, cell and hidden codes are codes of their types. *)
Theorem C87_states_in_dtype : forall input hidden state act_in act_out gi gf gc go sq l f c i g o a,
  lstm_build_f input hidden state act_in act_out gi gf gc go sq = Ok l ->
  gmin (n_dtype act_out) <= gmax (n_dtype act_out) -> gmin (n_dtype hidden) <= gmax (n_dtype hidden) ->
  gmin (n_dtype act_out) <= cell1_f l f c i g <= gmax (n_dtype act_out) /\ gmin (n_dtype hidden) <= hidden1_f l o a <= gmax (n_dtype hidden).
Proof.
  intros input hidden state act_in act_out gi gf gc go sq l f c i g o a Hb D1 D2.
  destruct (build_f_fields _ _ _ _ _ _ _ _ _ _ _ Hb) as (_ & _ & _ & _ & _ & _ & _ & _ & _ & E1 & E2).
  unfold cell1_f, hidden1_f. rewrite E1, E2. split; now apply clipZ_range.
Qed.

(** ** Concrete layers (1 feature, 1 cell, int8); scales are the doubles nearest to decimals *)
Definition dec (n : Z) : Q := fl64 (inject_Z n / 100).
Definition dgate (k r b : Z) (so : Q) (f : Q -> Q) : gate_nodes :=
  mkgn (tnode (dec 10) k) (tnode (dec 20) r) (tnode (dec 3) b) (enode (dec 11) 0 int8) (lnode f int8 0 0) (enode so 0 int8).
Lemma double_intro x m e : Z.abs m < 2 ^ 53 -> -1074 <= e <= 971 -> Qeq_bool x (inject_Z m * two_to e) = true -> double x.
Proof. intros A B C. exists m, e. split; [exact A|]. split; [exact B|]. now apply Qeq_bool_iff. Qed.
Lemma fair_intro x m e : Z.abs m < 2 ^ 53 -> -1074 <= e <= 971 -> Qeq_bool x (inject_Z m * two_to e) = true -> Qle_bool (1#1000) x = true -> Qle_bool x 1000 = true -> fair x.
Proof.
  intros A B C D E. split; [now apply (double_intro x m e)|]. apply Qle_bool_iff in D, E. split.
  - eapply Qle_trans; [|exact D]. apply Qle_trans with (pow2 (-10)); [apply (pow2_mono (-200) (-10)); lia|vm_compute; discriminate].
  - eapply Qle_trans; [exact E|]. apply Qle_trans with (pow2 10); [vm_compute; discriminate|apply (pow2_mono 10 200); lia].
Qed.
(** A gate output 0.1, an activation 0.7 and a hidden state 0.35 per code: 0.1 * 0.7 / 0.35 * 20 is 4.  The exact product of the three
    doubles is above 4; in binary64 it is below, and truncation gives 3: one code less. *)
Definition rt_state : node := enode (dec 29) 0 int8.
Definition rt_hidden : node := enode (dec 35) 0 int8.
Definition rt_act : node := enode (dec 70) 0 int8.
Definition rt_in : node := enode (dec 30) 0 int8.
Definition rt_gate (c : Q) : gate_nodes := dgate 0 0 0 (dec 10) (fun _ => c).
Definition rt_actin : node := lnode (fun _ => 4#16) int8 0 0.
Lemma fair_dec n m e : Z.abs m < 2 ^ 53 -> -1074 <= e <= 971 -> Qeq_bool (dec n) (inject_Z m * two_to e) = true -> Qle_bool (1#1000) (dec n) = true -> Qle_bool (dec n) 1000 = true -> fair (dec n).
Proof. apply fair_intro. Qed.
Lemma fair_3 : fair (dec 3). Proof. apply (fair_dec 3 1080863910568919 (-55)); [reflexivity|lia|vm_compute; reflexivity|vm_compute; reflexivity|vm_compute; reflexivity]. Qed.
Lemma fair_10 : fair (dec 10). Proof. apply (fair_dec 10 3602879701896397 (-55)); [reflexivity|lia|vm_compute; reflexivity|vm_compute; reflexivity|vm_compute; reflexivity]. Qed.
Lemma fair_11 : fair (dec 11). Proof. apply (fair_dec 11 7926335344172073 (-56)); [reflexivity|lia|vm_compute; reflexivity|vm_compute; reflexivity|vm_compute; reflexivity]. Qed.
Lemma fair_13 : fair (dec 13). Proof. apply (fair_dec 13 1170935903116329 (-53)); [reflexivity|lia|vm_compute; reflexivity|vm_compute; reflexivity|vm_compute; reflexivity]. Qed.
Lemma fair_17 : fair (dec 17). Proof. apply (fair_dec 17 6124895493223875 (-55)); [reflexivity|lia|vm_compute; reflexivity|vm_compute; reflexivity|vm_compute; reflexivity]. Qed.
Lemma fair_19 : fair (dec 19). Proof. apply (fair_dec 19 3422735716801577 (-54)); [reflexivity|lia|vm_compute; reflexivity|vm_compute; reflexivity|vm_compute; reflexivity]. Qed.
Lemma fair_20 : fair (dec 20). Proof. apply (fair_dec 20 3602879701896397 (-54)); [reflexivity|lia|vm_compute; reflexivity|vm_compute; reflexivity|vm_compute; reflexivity]. Qed.
Lemma fair_23 : fair (dec 23). Proof. apply (fair_dec 23 8286623314361713 (-55)); [reflexivity|lia|vm_compute; reflexivity|vm_compute; reflexivity|vm_compute; reflexivity]. Qed.
Lemma fair_29 : fair (dec 29). Proof. apply (fair_dec 29 5224175567749775 (-54)); [reflexivity|lia|vm_compute; reflexivity|vm_compute; reflexivity|vm_compute; reflexivity]. Qed.
Lemma fair_30 : fair (dec 30). Proof. apply (fair_dec 30 5404319552844595 (-54)); [reflexivity|lia|vm_compute; reflexivity|vm_compute; reflexivity|vm_compute; reflexivity]. Qed.
Lemma fair_31 : fair (dec 31). Proof. apply (fair_dec 31 5584463537939415 (-54)); [reflexivity|lia|vm_compute; reflexivity|vm_compute; reflexivity|vm_compute; reflexivity]. Qed.
Lemma fair_35 : fair (dec 35). Proof. apply (fair_dec 35 3152519739159347 (-53)); [reflexivity|lia|vm_compute; reflexivity|vm_compute; reflexivity|vm_compute; reflexivity]. Qed.
Lemma fair_37 : fair (dec 37). Proof. apply (fair_dec 37 3332663724254167 (-53)); [reflexivity|lia|vm_compute; reflexivity|vm_compute; reflexivity|vm_compute; reflexivity]. Qed.
Lemma fair_70 : fair (dec 70). Proof. apply (fair_dec 70 3152519739159347 (-52)); [reflexivity|lia|vm_compute; reflexivity|vm_compute; reflexivity|vm_compute; reflexivity]. Qed.
Lemma dgate_fair k r b so f : fair so -> fair_gate (dgate k r b so f).
Proof. intros H. split; [exact fair_10|]. split; [exact fair_20|]. split; [exact fair_11|]. split; [exact H|]. discriminate. Qed.
Lemma rt_fair : fair_layer rt_in rt_hidden rt_state rt_act (rt_gate 0) (rt_gate 0) (rt_gate 0) (rt_gate (5#16)).
Proof.
  constructor; try discriminate; [exact fair_30|exact fair_35|exact fair_29|exact fair_70| |].
  - intros g [<-|[<-|[<-|[<-|[]]]]]; apply dgate_fair, fair_10.
  - split; [discriminate|]. split; discriminate.
Qed.
Theorem C87_truncation_refuted : exists input hidden state act_in act_out gi gf gc go l lf recs recs',
  fair_layer input hidden state act_out gi gf gc go /\
  n_scale (gn_out go) = fl64 (10 # 100) /\ n_scale act_out = fl64 (70 # 100) /\ n_scale hidden = fl64 (35 # 100) /\
  lstm_build input hidden state act_in act_out gi gf gc go false = Ok l /\
  lstm_build_f input hidden state act_in act_out gi gf gc go false = Ok lf /\
  lstm_infer l 1 [[[0]]] = Ok (OLast [[4]], recs) /\ lstm_infer_f lf 1 [[[0]]] = Ok (OLast [[3]], recs').
Proof.
  exists rt_in, rt_hidden, rt_state, rt_actin, rt_act, (rt_gate 0), (rt_gate 0), (rt_gate 0), (rt_gate (5#16)).
  eexists; eexists; eexists; eexists. split; [exact rt_fair|].
  split; [vm_compute; reflexivity|]. split; [vm_compute; reflexivity|]. split; [vm_compute; reflexivity|].
  split; [vm_compute; reflexivity|]. split; [vm_compute; reflexivity|]. split; vm_compute; reflexivity.
Qed.

(** A run that is steady: two samples of two steps, with nonzero kernels, biases and recurrent kernels. *)
Definition clear_b (x m : Q) : bool :=
  let k := Qfloor x in
  negb (Qle_bool 1 m) && ((k =? 0) || negb (Qle_bool (x - inject_Z k) m)) && ((k =? -1) || negb (Qle_bool (inject_Z (k + 1) - x) m)).
Lemma clear_ok lo hi x m : clear_b x m = true -> clear lo hi x m.
Proof.
  intros H z Z0 _. unfold clear_b in H. set (k := Qfloor x) in *. apply andb_true_iff in H as [H H3]. apply andb_true_iff in H as [H1 H2].
  assert (NL : forall a b, negb (Qle_bool a b) = true -> (b < a)%Q).
  { intros a b E. apply negb_true_iff in E. apply Qnot_le_lt. intros L. apply Qle_bool_iff in L. congruence. }
  apply NL in H1. pose proof (Qfloor_le x) as F1. pose proof (Qlt_floor x) as F2. fold k in F1, F2.
  destruct (Z_le_gt_dec z k) as [L|G].
  - assert (LQ : (inject_Z z <= inject_Z k)%Q) by (apply (proj1 (Zle_inj _ _)); exact L). rewrite Qabs_pos by lra.
    apply orb_true_iff in H2 as [H2|H2].
    + apply Z.eqb_eq in H2. assert (L1 : (inject_Z z <= inject_Z (-1))%Q) by (apply (proj1 (Zle_inj _ _)); lia). rewrite H2 in F1. change (inject_Z 0) with 0%Q in F1. change (inject_Z (-1)) with (-1)%Q in L1. lra.
    + apply NL in H2. lra.
  - assert (LQ : (inject_Z (k + 1) <= inject_Z z)%Q) by (apply (proj1 (Zle_inj _ _)); lia). rewrite Qabs_neg by lra.
    apply orb_true_iff in H3 as [H3|H3].
    + apply Z.eqb_eq in H3. assert (L1 : (inject_Z 1 <= inject_Z z)%Q) by (apply (proj1 (Zle_inj _ _)); lia). rewrite H3 in F2. change (inject_Z (-1 + 1)) with 0%Q in F2. change (inject_Z 1) with 1%Q in L1. lra.
    + apply NL in H3. lra.
Qed.
(** a decision procedure for it *)
Definition gate_b (g : gate) (n : nat) (d : gdtype) (h x : list Z) : bool :=
  forallb (fun j =>
    let kacc := dot_col j x (g_kernel g) + nth j (g_bias g) 0 in
    let racc := dot_col j h (g_rec g) in
    let v := (g_M1 g * inject_Z kacc)%Q in
    let w := (inject_Z (racc + Qtrunc v) * g_M2 g)%Q in
    (Z.abs (dot_col j x (g_kernel g)) <=? 2 ^ 52) && (Z.abs (nth j (g_bias g) 0) <=? 2 ^ 52) && (Z.abs racc <=? 2 ^ 51) && Qle_bool (Qabs v) (inject_Z (2 ^ 51)) &&
    clear_b v (u50 * Qabs v) &&
    ((racc + Qtrunc v =? 0) || clear_b (w + inject_Z (g_rzp g)) (u50 * (Qabs w + Qabs (inject_Z (g_rzp g)))))) (seq 0 n).
Definition cell_b (l : lstm) (f c i g : Z) : bool :=
  let fc := (inject_Z (f - l_forget_zp l) * l_M3 l * inject_Z (c - l_state_zp l))%Q in
  let ig := (inject_Z ((i - l_in_zp l) * (g - l_cellg_zp l)) * l_M4 l)%Q in
  let z := inject_Z (l_state_zp l) in
  (Z.abs (f - l_forget_zp l) <=? 2 ^ 53) && (Z.abs (c - l_state_zp l) <=? 2 ^ 53) && (Z.abs ((i - l_in_zp l) * (g - l_cellg_zp l)) <=? 2 ^ 53) &&
  Qle_bool (Qabs z + Qabs fc + Qabs ig) (inject_Z (2 ^ 61)) &&
  ((Qeq_bool fc 0 && Qeq_bool ig 0) || clear_b (z + fc + ig) (u50 * (Qabs z + Qabs fc + Qabs ig))).
Definition hidden_b (l : lstm) (o a : Z) : bool :=
  let oa := (inject_Z ((o - l_out_zp l) * (a - l_act_zp l)) * l_M5 l)%Q in
  let z := inject_Z (l_hidden_zp l) in
  (Z.abs ((o - l_out_zp l) * (a - l_act_zp l)) <=? 2 ^ 53) && Qle_bool (Qabs z + Qabs oa) (inject_Z (2 ^ 61)) &&
  (Qeq_bool oa 0 || clear_b (z + oa) (u50 * (Qabs z + Qabs oa))).
Definition step_b (l : lstm) (h c x : list Z) (s : step_rec) : bool :=
  forallb (fun g => gate_b g (l_cells l) (l_rec_dtype l) h x) [l_in l; l_forget l; l_cell l; l_out l] &&
  forallb (fun j => let code k := nth j (nth k (s_gates s) []) 0 in
    cell_b l (code 1%nat) (nth j c 0) (code 0%nat) (code 2%nat) && hidden_b l (code 3%nat) (nth j (s_act s) 0)) (seq 0 (l_cells l)).
Fixpoint run_b (l : lstm) (h c : list (list Z)) (xs : list (list (list Z))) (recs : list (list step_rec)) : bool :=
  match xs, recs with
  | x :: xs', s :: recs' =>
      forallb (fun b => step_b l (brow h b) (brow c b) (nth b x []) (nth b s dstep)) (seq 0 (length x)) && run_b l (map s_hidden s) (map s_cell s) xs' recs'
  | _, _ => true
  end.
Ltac split_andb := repeat match goal with H : _ && _ = true |- _ => apply andb_true_iff in H as [? ?] end.
Lemma gate_b_ok g n d h x : gate_b g n d h x = true -> steady_gate g n d h x.
Proof.
  intros H j Hj. unfold gate_b in H. rewrite forallb_forall in H. specialize (H j ltac:(apply in_seq; lia)). cbv beta zeta in H |- *. split_andb.
  split; [now apply Z.leb_le|]. split; [now apply Z.leb_le|]. split; [now apply Z.leb_le|]. split; [now apply Qle_bool_iff|]. split; [now apply clear_ok|].
  match goal with H : _ || _ = true |- _ => apply orb_true_iff in H as [E|E] end; [left; now apply Z.eqb_eq|right; now apply clear_ok].
Qed.
Lemma cell_b_ok l f c i g : cell_b l f c i g = true -> steady_cell l f c i g.
Proof.
  intros H. unfold cell_b in H. unfold steady_cell. cbv zeta in H |- *. split_andb.
  split; [now apply Z.leb_le|]. split; [now apply Z.leb_le|]. split; [now apply Z.leb_le|]. split; [now apply Qle_bool_iff|].
  match goal with H : _ || _ = true |- _ => apply orb_true_iff in H as [E|E] end; [left|right; now apply clear_ok].
  apply andb_true_iff in E as [E1 E2]. split; now apply Qeq_bool_iff.
Qed.
Lemma hidden_b_ok l o a : hidden_b l o a = true -> steady_hidden l o a.
Proof.
  intros H. unfold hidden_b in H. unfold steady_hidden. cbv zeta in H |- *. split_andb.
  split; [now apply Z.leb_le|]. split; [now apply Qle_bool_iff|].
  match goal with H : _ || _ = true |- _ => apply orb_true_iff in H as [E|E] end; [left; now apply Qeq_bool_iff|right; now apply clear_ok].
Qed.
Lemma run_b_ok l : forall xs h c recs, run_b l h c xs recs = true -> steady_run l h c xs recs.
Proof.
  induction xs as [|x xs IH]; intros h c [|s recs] H; cbn [steady_run run_b] in *; try exact Logic.I.
  apply andb_true_iff in H as [H1 H2]. split; [|now apply IH]. intros b Hb. rewrite forallb_forall in H1. specialize (H1 b ltac:(apply in_seq; lia)).
  unfold step_b in H1. apply andb_true_iff in H1 as [G C]. split.
  - intros g Hg. rewrite forallb_forall in G. apply gate_b_ok. now apply G.
  - intros j Hj. rewrite forallb_forall in C. specialize (C j ltac:(apply in_seq; lia)). cbv beta zeta in C |- *. apply andb_true_iff in C as [C1 C2].
    split; [now apply cell_b_ok|now apply hidden_b_ok].
Qed.
Definition ex_hidden : node := enode (dec 37) 0 int8.
Definition ex_act : node := enode (dec 31) 0 int8.
Definition ex_gi := dgate 7 3 5 (dec 13) idf.
Definition ex_gf := dgate (-4) 5 9 (dec 17) idf.
Definition ex_gc := dgate 6 (-7) (-2) (dec 19) idf.
Definition ex_go := dgate 5 2 8 (dec 23) idf.
Definition ex_l : res lstm := lstm_build rt_in ex_hidden rt_state (lnode idf int8 0 0) ex_act ex_gi ex_gf ex_gc ex_go true.
Definition ex_lf : res flstm := lstm_build_f rt_in ex_hidden rt_state (lnode idf int8 0 0) ex_act ex_gi ex_gf ex_gc ex_go true.
Definition ex_samples : list (list (list Z)) := [[[3]; [-2]]; [[5]; [4]]].

Example C87_example : exists l lf o recs, ex_l = Ok l /\ ex_lf = Ok lf /\ fair_layer rt_in ex_hidden rt_state ex_act ex_gi ex_gf ex_gc ex_go /\
  lstm_infer l 2 ex_samples = Ok (o, recs) /\ steady_run l [repeat 0 (l_cells l)] [repeat 0 (l_cells l)] (timesteps 2 (l_input_zp l) ex_samples) recs /\
  o = OSeq [[[2]; [0]]; [[7]; [-95]]] /\ lstm_infer_f lf 2 ex_samples = Ok (o, recs).
Proof.
  eexists; eexists; eexists; eexists. split; [vm_compute; reflexivity|]. split; [vm_compute; reflexivity|]. split; [|split; [vm_compute; reflexivity|split]].
  - constructor; try discriminate; [exact fair_30|exact fair_37|exact fair_29|exact fair_31| |split; [discriminate|split; discriminate]].
    intros g [<-|[<-|[<-|[<-|[]]]]]; apply dgate_fair; [exact fair_13|exact fair_17|exact fair_19|exact fair_23].
  - apply run_b_ok. vm_compute. reflexivity.
  - split; [reflexivity|vm_compute; reflexivity].
Qed.
(** the hypotheses of the accuracy theorems hold for this layer (input gate on input 5 from hidden code 7; a cell update) *)
Example C87_accuracy_example : exists lf g b r, ex_lf = Ok lf /\ build_gate_f rt_in ex_hidden ex_gi = Ok g /\
  bias_add_row_f 1 g [5] = Ok b /\ recurrent_row_f 1 int8 g [7] b = Ok r /\ r = [24] /\
  fair_layer rt_in ex_hidden rt_state ex_act ex_gi ex_gf ex_gc ex_go /\
  dot_col 0 [5] (fg_kernel g) = 35 /\ nth 0 (fg_bias g) 0 = 5 /\ dot_col 0 [7] (fg_rec g) = 21 /\
  (dec 10 * dec 30 / (dec 37 * dec 20) * inject_Z (Z.abs 40) <= inject_Z (2 ^ 51))%Q /\
  cell1_f lf 22 100 14 (-27) = 127 /\ cell1_f lf 22 (-3) 14 (-27) = -43.
Proof.
  eexists; eexists; eexists; eexists. split; [vm_compute; reflexivity|]. split; [vm_compute; reflexivity|]. split; [vm_compute; reflexivity|].
  split; [vm_compute; reflexivity|]. split; [vm_compute; reflexivity|]. split.
  - constructor; try discriminate; [exact fair_30|exact fair_37|exact fair_29|exact fair_31| |split; [discriminate|split; discriminate]].
    intros g [<-|[<-|[<-|[<-|[]]]]]; apply dgate_fair; [exact fair_13|exact fair_17|exact fair_19|exact fair_23].
  - split; [vm_compute; reflexivity|]. split; [vm_compute; reflexivity|]. split; [vm_compute; reflexivity|]. split; [vm_compute; discriminate|]. split; vm_compute; reflexivity.
Qed.
