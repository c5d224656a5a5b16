(** Property C88: the ONNX quantized addition and matrix product with every float operation in binary64. *)
From Verif Require Import Base BaseProofs DtypeModel QuantModel QuantProofs LutModel FcModel FcProofs FcLayer EngineModel EngineProofs LstmModel PropCore PropFc OnnxModel PropOnnx
  FloatModel FloatProofs FloatQuant PropFloat FloatFcModel PropFloatFc LstmProofs PropLstm FloatLstmModel FloatLstmProofs PropFloatLstm FloatOnnxModel.
From Coq Require Import Lqa Qpower.
Open Scope Z_scope.
Open Scope list_scope.

(** ** Round, add the zero point, clip, cast *)
Lemma cast_int nan n y : uint8 n -> (y == inject_Z n)%Q -> fcast_u8 nan (Fin y) = n.
Proof. intros [A B] E. unfold fcast_u8. rewrite (EngineProofs.Qtrunc_comp _ _ E), Qtrunc_Z. apply Z.mod_small. lia. Qed.
Lemma clip_cast nan z y : (y == inject_Z z)%Q -> fcast_u8 nan (fclip 0 255 (Fin y)) = clipZ 0 255 z.
Proof.
  intros E. unfold fclip. destruct (Qlt_le_dec y (inject_Z 0)) as [A|A]; [|destruct (Qlt_le_dec (inject_Z 255) y) as [B|B]].
  - rewrite E in A. apply Zlt_inj in A. cbn [Z.ltb Z.compare]. rewrite (cast_int nan 0) by (unfold uint8; lia || reflexivity). unfold clipZ. lia.
  - rewrite E in B. apply Zlt_inj in B. rewrite (cast_int nan 255) by (unfold uint8; lia || reflexivity). unfold clipZ. lia.
  - rewrite E in A, B. apply Zle_inj in A. apply Zle_inj in B. rewrite (cast_int nan z) by (unfold uint8; lia || exact E). unfold clipZ. lia.
Qed.
Lemma clip_big nan y : (255 < y)%Q -> fcast_u8 nan (fclip 0 255 (Fin y)) = 255.
Proof.
  intros H. unfold fclip. change (inject_Z 0) with 0%Q. change (inject_Z 255) with 255%Q.
  destruct (Qlt_le_dec y 0) as [A|A]; [lra|]. destruct (Qlt_le_dec 255 y) as [B|B]; [reflexivity|lra].
Qed.
Lemma clip_low nan y : (y < 0)%Q -> fcast_u8 nan (fclip 0 255 (Fin y)) = 0.
Proof.
  intros H. unfold fclip. change (inject_Z 0) with 0%Q. change (inject_Z 255) with 255%Q.
  destruct (Qlt_le_dec y 0) as [A|A]; [reflexivity|lra].
Qed.
Lemma clip_rnd nan z x : (x == inject_Z z)%Q -> fcast_u8 nan (fclip 0 255 (rnd x)) = clipZ 0 255 z.
Proof.
  intros E. destruct (Z_le_gt_dec (Z.abs z) (2 ^ 53)) as [L|G].
  - assert (B : (Qabs x <= pow2 1023)%Q).
    { rewrite E. eapply Qle_trans; [apply (abs_inject z 53); [lia|exact L]|]. apply pow2_mono. lia. }
    rewrite rnd_fin by exact B. apply clip_cast.
    unfold fl64. rewrite (fl_comp 53 (-1074) _ _ E). apply fl64_Z, L.
  - assert (P53 : (pow2 53 == inject_Z (2 ^ 53))%Q) by (apply pow2_Z; lia).
    pose proof (rnd_approx x 53 ltac:(lia)) as A.
    destruct (Z_lt_le_dec z 0) as [N|N].
    + assert (F : (fl64 x <= - pow2 53)%Q).
      { apply fl_big_le; [lia|]. rewrite E, P53, <- inject_Z_opp. apply (proj1 (Zle_inj _ _)). lia. }
      assert (C : clipZ 0 255 z = 0) by (unfold clipZ; lia). rewrite C. pose proof (pow2_pos 53).
      destruct (rnd x) as [q|[|]|]; unfold approx in A; [|reflexivity|lra|destruct A]. apply clip_low. lra.
    + assert (F : (pow2 53 <= fl64 x)%Q).
      { apply fl_big_ge; [lia|]. rewrite E, P53. apply (proj1 (Zle_inj _ _)). lia. }
      assert (C : clipZ 0 255 z = 255) by (unfold clipZ; lia). rewrite C.
      assert (B : (255 < pow2 53)%Q) by reflexivity.
      destruct (rnd x) as [q|[|]|]; unfold approx in A; [|lra|reflexivity|destruct A]. apply clip_big. lra.
Qed.
Lemma finish_fin nan y oz : uint8 oz -> finish_f nan (Fin y) oz = clipZ 0 255 (Qround_even y + oz).
Proof.
  intros [A B]. unfold finish_f, frint. destruct (f_of_Z_fin oz ltac:(lia)) as (w & -> & W). unfold fadd.
  apply clip_rnd. rewrite W, inject_Z_plus. reflexivity.
Qed.
Lemma finish_inf nan n oz : uint8 oz -> finish_f nan (Inf n) oz = if n then 0 else 255.
Proof.
  intros [A B]. unfold finish_f, frint. destruct (f_of_Z_fin oz ltac:(lia)) as (w & -> & W). destruct n; reflexivity.
Qed.
Lemma finish_nan nan oz : finish_f nan NaN oz = nan.
Proof. reflexivity. Qed.

(** Codes from a value known up to d *)
Lemma finish_error nan y r d oz : uint8 oz -> (Qabs (y - r) <= d)%Q ->
  uint8 (finish_f nan (Fin y) oz) /\ (Qabs (inject_Z (finish_f nan (Fin y) oz) - clampQ 0 255 (r + inject_Z oz)) <= (1#2) + d)%Q.
Proof.
  intros Hz H. rewrite finish_fin by exact Hz. split; [apply clipZ_range; lia|]. rewrite <- clamp_clip by lia. apply clampQ_close; [lia|].
  pose proof (Qround_even_near y) as R. apply Qabs_Qle_condition in R, H. apply Qabs_Qle_condition. rewrite inject_Z_plus. split; lra.
Qed.
Lemma round_stable y r d : (Qabs (y - r) <= d)%Q -> (forall k, (d < Qabs (r - (inject_Z k + (1#2))))%Q) -> Qround_even y = Qround_even r.
Proof.
  intros H K. set (n := Qround_even r). pose proof (Qround_even_near r) as R. fold n in R. pose proof (Qround_even_near y) as Y.
  pose proof (K n) as K1. pose proof (K (n - 1)) as K2. unfold Z.sub in K2. rewrite inject_Z_plus in K2. change (inject_Z (- (1))) with (-(1))%Q in K2.
  apply Qabs_Qle_condition in R. rewrite Qabs_neg in K1 by lra. rewrite Qabs_pos in K2 by lra.
  apply Qabs_Qle_condition in H, Y.
  assert (U : (inject_Z (Qround_even y) < inject_Z (n + 1))%Q) by (rewrite inject_Z_plus; change (inject_Z 1) with 1%Q; lra).
  assert (L : (inject_Z (n - 1) < inject_Z (Qround_even y))%Q) by (unfold Z.sub; rewrite inject_Z_plus; change (inject_Z (- (1))) with (-(1))%Q; lra).
  apply Zlt_inj in U. apply Zlt_inj in L. lia.
Qed.

(** ** Addition *)
Lemma small_53 k z : 0 <= k <= 53 -> Z.abs z <= 2 ^ k -> Z.abs z <= 2 ^ 53.
Proof. intros K H. eapply Z.le_trans; [exact H|]. apply Z.pow_le_mono_r; lia. Qed.
Lemma term_near s i : fair s -> Z.abs i <= 2 ^ 53 ->
  near (fmul (Fin s) (f_of_Z i)) (s * inject_Z i) (2 * u53) /\ (Qabs (s * inject_Z i) == s * inject_Z (Z.abs i))%Q /\ (Qabs (s * inject_Z i) <= pow2 300)%Q.
Proof.
  intros F H. pose proof (fair_range _ F) as R. pose proof (fair_pos _ F) as P. split; [|split].
  - destruct (near_mulZ (Fin s) s 0 i ltac:(split; discriminate) (near_scale s (proj1 F)) H (big_ok 200 s i ltac:(lia) R ltac:(lia))) as (_ & N).
    apply (near_weaken _ _ (0 + 2 * u53)); [discriminate|exact N].
  - rewrite Qabs_Qmult, (Qabs_pos s) by lra. reflexivity.
  - rewrite Qabs_Qmult, (Qabs_pos s) by lra. pose proof (abs_inject i 53 ltac:(lia) H) as A. pose proof (pow2_pos 53).
    apply Qle_trans with (s * pow2 53)%Q; [rewrite !(Qmult_comm s); apply Qmult_le_compat_r; lra|].
    apply Qle_trans with (pow2 200 * pow2 53)%Q; [apply Qmult_le_compat_r; [apply R|lra]|]. rewrite <- pow2_plus. apply pow2_mono. lia.
Qed.
Lemma add_value is bs os i b : fair is -> fair bs -> fair os -> Z.abs i <= 2 ^ 53 -> Z.abs b <= 2 ^ 53 ->
  exists y, fdiv (fadd (fmul (Fin is) (f_of_Z i)) (fmul (Fin bs) (f_of_Z b))) (Fin os) = Fin y /\
    (Qabs (y - (is * inject_Z i + bs * inject_Z b) / os) <= u50 * ((is * inject_Z (Z.abs i) + bs * inject_Z (Z.abs b)) / os))%Q.
Proof.
  intros Fi Fb Fo Hi Hb. destruct (term_near is i Fi Hi) as (N1 & E1 & B1). destruct (term_near bs b Fb Hb) as (N2 & E2 & B2).
  pose proof (fair_pos _ Fi) as Pi. pose proof (fair_pos _ Fb) as Pb. pose proof (fair_pos _ Fo) as Po.
  apply near_abs in N1, N2.
  cut (exists y, fdiv (fadd (fmul (Fin is) (f_of_Z i)) (fmul (Fin bs) (f_of_Z b))) (Fin os) = Fin y /\
    (Qabs (y - (is * inject_Z i + bs * inject_Z b) / os) <= u50 * ((Qabs (is * inject_Z i) + Qabs (bs * inject_Z b)) / os))%Q).
  { intros (y & Y1 & Y2). exists y. split; [exact Y1|]. rewrite <- E1, <- E2. exact Y2. }
  set (P := Qabs (is * inject_Z i)) in *. set (R := Qabs (bs * inject_Z b)) in *.
  assert (P0 : (0 <= P)%Q) by apply Qabs_nonneg. assert (R0 : (0 <= R)%Q) by apply Qabs_nonneg.
  assert (TP : (u53 * P <= (1#4) * P)%Q) by (apply Qmult_le_compat_r; [discriminate|exact P0]).
  assert (TR : (u53 * R <= (1#4) * R)%Q) by (apply Qmult_le_compat_r; [discriminate|exact R0]).
  destruct (absn_add _ _ _ _ _ _ (2 * (P + R))%Q N1 N2) as (s & S1 & S2 & S3).
  - fold P R. lra.
  - assert (X : (pow2 1022 == pow2 1019 * 8)%Q) by apply pow2_4. assert (X1 : (pow2 300 <= pow2 1019)%Q) by (apply pow2_mono; lia). lra.
  - rewrite S1. set (r := (is * inject_Z i + bs * inject_Z b)%Q) in *. set (T := (P + R)%Q) in *.
    assert (T0 : (0 <= T)%Q) by (unfold T; lra).
    assert (S4 : (Qabs (s - r) <= 4 * u53 * T)%Q) by (eapply Qle_trans; [exact S3|]; unfold T; lra).
    assert (RT : (Qabs r <= T)%Q) by (unfold r, T, P, R; apply Qabs_triangle).
    assert (SB : (Qabs s <= 2 * T)%Q) by (pose proof (abs_le_of _ _ _ S4) as A; assert (A2 : (u53 * T <= (1#4) * T)%Q) by (apply Qmult_le_compat_r; [discriminate|exact T0]); lra).
    unfold fdiv. destruct (Qeq_bool os 0) eqn:EO; [apply Qeq_bool_iff in EO; lra|].
    assert (IO : (0 < / os)%Q) by (apply Qinv_lt_0_compat, Po).
    assert (AB : (Qabs (s / os) <= 2 * (T / os))%Q).
    { unfold Qdiv. rewrite Qabs_Qmult, (Qabs_pos (/ os)) by lra. rewrite Qmult_assoc. apply Qmult_le_compat_r; lra. }
    assert (Ds : (Qabs (s / os - r / os) <= 4 * u53 * (T / os))%Q).
    { setoid_replace (s / os - r / os)%Q with ((s - r) * / os)%Q by (field; lra). rewrite Qabs_Qmult, (Qabs_pos (/ os)) by lra.
      unfold Qdiv. rewrite Qmult_assoc. apply Qmult_le_compat_r; lra. }
    assert (TO0 : (0 <= T / os)%Q) by (apply Qmult_le_0_compat; lra).
    assert (TB : (T / os <= pow2 600)%Q).
    { pose proof (posrange_inv _ _ (fair_range _ Fo)) as [_ IB]. unfold Qdiv. assert (X : (T <= pow2 301)%Q).
      { unfold T. assert (X : (pow2 301 == 2 * pow2 300)%Q) by apply (pow2_S 300). lra. }
      apply Qle_trans with (pow2 301 * / os)%Q; [apply Qmult_le_compat_r; lra|]. pose proof (pow2_pos 301).
      apply Qle_trans with (pow2 301 * pow2 200)%Q; [rewrite !(Qmult_comm (pow2 301)); apply Qmult_le_compat_r; lra|]. rewrite <- pow2_plus. apply pow2_mono. lia. }
    exists (fl64 (s / os)). split.
    { apply rnd_fin. eapply Qle_trans; [exact AB|]. apply Qle_trans with (2 * pow2 600)%Q; [lra|]. rewrite <- pow2_S. apply pow2_mono. lia. }
    destruct (Qlt_le_dec 0 T) as [TP0|TZ].
    + assert (TL : (pow2 (-400) <= T / os)%Q).
      { pose proof (posrange_inv _ _ (fair_range _ Fo)) as [IB _].
        assert (X : (pow2 (-200) <= T)%Q).
        { destruct (Z.eq_dec i 0) as [I0|I0].
          - destruct (Z.eq_dec b 0) as [B0|B0].
            + exfalso. assert (TT : (T == is * inject_Z (Z.abs i) + bs * inject_Z (Z.abs b))%Q) by (unfold T; lra).
              rewrite I0, B0 in TT. change (inject_Z (Z.abs 0)) with 0%Q in TT. rewrite !Qmult_0_r in TT. lra.
            + apply Qle_trans with R; [|unfold T; lra]. rewrite E2. apply Qle_trans with (bs * 1)%Q; [rewrite Qmult_1_r; apply (fair_range _ Fb)|].
              rewrite !(Qmult_comm bs). apply Qmult_le_compat_r; [|lra]. apply (proj1 (Zle_inj 1 _)). lia.
          - apply Qle_trans with P; [|unfold T; lra]. rewrite E1. apply Qle_trans with (is * 1)%Q; [rewrite Qmult_1_r; apply (fair_range _ Fi)|].
            rewrite !(Qmult_comm is). apply Qmult_le_compat_r; [|lra]. apply (proj1 (Zle_inj 1 _)). lia. }
        apply Qle_trans with (pow2 (-200) * pow2 (-200))%Q; [rewrite <- pow2_plus; apply Qle_refl|]. pose proof (pow2_pos (-200)).
        apply Qle_trans with (T * pow2 (-200))%Q; [apply Qmult_le_compat_r; lra|]. unfold Qdiv. rewrite !(Qmult_comm T). apply Qmult_le_compat_r; [exact IB|lra]. }
      pose proof (fl_err 53 (-1074) p64 (s / os)) as FE. fold (fl64 (s / os)) in FE. rewrite u53_pow in FE.
      assert (UF : (pow2 (-1074 - 1) <= u53 * (T / os))%Q).
      { apply Qle_trans with (u53 * pow2 (-400))%Q; [|rewrite !(Qmult_comm u53); apply Qmult_le_compat_r; [exact TL|discriminate]].
        rewrite <- u53_pow, <- pow2_plus. apply pow2_mono. lia. }
      setoid_replace (fl64 (s / os) - r / os)%Q with ((fl64 (s / os) - s / os) + (s / os - r / os))%Q by ring.
      eapply Qle_trans; [apply Qabs_triangle|].
      assert (X : (Qabs (s / os) * u53 <= 2 * (T / os) * u53)%Q) by (apply Qmult_le_compat_r; [exact AB|discriminate]).
      setoid_replace (u50 * (T / os))%Q with (8 * u53 * (T / os))%Q by (apply Qmult_comp; reflexivity).
      assert (X0 : (0 <= u53 * (T / os))%Q) by (apply Qmult_le_0_compat; [discriminate|exact TO0]). lra.
    + assert (TE : (T == 0)%Q) by lra. assert (SE : (s == 0)%Q). { pose proof (Qabs_nonneg s). apply Qabs_Qle_condition in SB. lra. }
      assert (RE : (r == 0)%Q) by (apply Qabs_Qle_condition in RT; lra).
      unfold fl64. rewrite (fl_0' 53 (-1074)) by (rewrite SE; field; lra).
      setoid_replace (0 - r / os)%Q with 0%Q by (rewrite RE; field; lra). change (Qabs 0) with 0%Q. apply Qmult_le_0_compat; [discriminate|exact TO0].
Qed.

(** One element: the slack of the double computation is 2^-50 of the absolute terms. *)
Definition add_slack (is : Q) (iz : Z) (bs : Q) (bz : Z) (os : Q) (x b : Z) : Q :=
  (u50 * ((is * inject_Z (Z.abs (x - iz)) + bs * inject_Z (Z.abs (b - bz))) / os))%Q.
Lemma center_small x z : uint8 x -> uint8 z -> Z.abs (x - z) <= 2 ^ 53.
Proof. unfold uint8. lia. Qed.
Lemma add_elem nan is iz b bs bz os oz v w : fair is -> fair bs -> fair os -> uint8 iz -> uint8 bz -> uint8 v -> uint8 w ->
  exists y, qadd1_f nan (mkqadd is iz b bs bz os oz) v w = finish_f nan (Fin y) oz /\
    (Qabs (y - add_ref is iz bs bz os 0 v w) <= add_slack is iz bs bz os v w)%Q.
Proof.
  intros Fi Fb Fo Hi Hb Hv Hw. unfold qadd1_f. cbn [qa_is qa_izp qa_bs qa_bzp qa_os qa_ozp]. rewrite !u8_center by assumption.
  destruct (add_value is bs os (v - iz) (w - bz) Fi Fb Fo (center_small _ _ Hv Hi) (center_small _ _ Hw Hb)) as (y & Y1 & Y2).
  exists y. split; [now rewrite Y1|]. unfold add_ref, add_slack. change (inject_Z 0) with 0%Q. rewrite Qplus_0_r. exact Y2.
Qed.

(** Every code is within half a code, plus the slack, of the clipped real-valued sum. *)
Theorem C88_add_error : forall nan is iz b bs bz os oz x,
  fair is -> fair bs -> fair os -> uint8 iz -> uint8 bz -> uint8 oz -> (forall i, uint8 (nd_get x i)) -> (forall i, uint8 (nd_get b i)) ->
  forall r, qadd_infer_f nan (mkqadd is iz b bs bz os oz) x = Ok r ->
  bshape (nd_shape x) (nd_shape b) = Some (nd_shape r) /\
  forall idx,
    let q := nd_get r idx in
    let v := nd_get x (bidx (nd_shape x) idx) in let w := nd_get b (bidx (nd_shape b) idx) in
    uint8 q /\ (Qabs (inject_Z q - clampQ 0 255 (add_ref is iz bs bz os oz v w)) <= (1#2) + add_slack is iz bs bz os v w)%Q.
Proof.
  intros nan is iz b bs bz os oz x Fi Fb Fo Hi Hb Ho Hx Hw r H. unfold qadd_infer_f, nd_bin in H. cbn [qa_b] in H.
  destruct (bshape (nd_shape x) (nd_shape b)) as [s|] eqn:S; [|discriminate].
  match type of H with Ok ?t = _ => assert (E : r = t) by congruence end. clear H. subst r.
  split; [reflexivity|]. intros idx q v w.
  destruct (add_elem nan is iz b bs bz os oz v w Fi Fb Fo Hi Hb (Hx _) (Hw _)) as (y & Y1 & Y2).
  unfold q. cbn [nd_get]. fold v w. rewrite Y1. destruct (finish_error nan y _ _ oz Ho Y2) as (A & B). split; [exact A|].
  assert (EQ : (add_ref is iz bs bz os 0 v w + inject_Z oz == add_ref is iz bs bz os oz v w)%Q) by (unfold add_ref; change (inject_Z 0) with 0%Q; ring).
  assert (EC : (clampQ 0 255 (add_ref is iz bs bz os 0 v w + inject_Z oz) == clampQ 0 255 (add_ref is iz bs bz os oz v w))%Q).
  { unfold clampQ. destruct (Qlt_le_dec (add_ref is iz bs bz os 0 v w + inject_Z oz) (inject_Z 0)), (Qlt_le_dec (add_ref is iz bs bz os oz v w) (inject_Z 0)),
      (Qlt_le_dec (inject_Z 255) (add_ref is iz bs bz os 0 v w + inject_Z oz)), (Qlt_le_dec (inject_Z 255) (add_ref is iz bs bz os oz v w)); lra. }
  rewrite <- EC. exact B.
Qed.
(** The double code is the code of the exact computation unless the exact quotient lies within the slack of a half-integer. *)
Theorem C88_add_agrees : forall nan is iz b bs bz os oz x,
  fair is -> fair bs -> fair os -> uint8 iz -> uint8 bz -> uint8 oz -> (forall i, uint8 (nd_get x i)) -> (forall i, uint8 (nd_get b i)) ->
  forall r e, qadd_infer_f nan (mkqadd is iz b bs bz os oz) x = Ok r -> qadd_infer (mkqadd is iz b bs bz os oz) x = Ok e ->
  nd_shape r = nd_shape e /\
  forall idx,
    let v := nd_get x (bidx (nd_shape x) idx) in let w := nd_get b (bidx (nd_shape b) idx) in
    (forall k, (add_slack is iz bs bz os v w < Qabs (add_ref is iz bs bz os 0 v w - (inject_Z k + (1#2))))%Q) ->
    nd_get r idx = nd_get e idx.
Proof.
  intros nan is iz b bs bz os oz x Fi Fb Fo Hi Hb Ho Hx Hw r e H H2. unfold qadd_infer_f, qadd_infer, nd_bin in H, H2. cbn [qa_b] in H, H2.
  destruct (bshape (nd_shape x) (nd_shape b)) as [s|] eqn:S; [|discriminate].
  match type of H with Ok ?t = _ => assert (E : r = t) by congruence end. match type of H2 with Ok ?t = _ => assert (E2 : e = t) by congruence end.
  clear H H2. subst r e. split; [reflexivity|]. intros idx v w K. cbn [nd_get]. fold v w.
  destruct (add_elem nan is iz b bs bz os oz v w Fi Fb Fo Hi Hb (Hx _) (Hw _)) as (y & Y1 & Y2).
  rewrite Y1, finish_fin by exact Ho. rewrite (round_stable _ _ _ Y2 K).
  unfold qadd1. cbn [qa_is qa_izp qa_bs qa_bzp qa_os qa_ozp]. rewrite !u8_center by (auto; apply Hx || apply Hw).
  f_equal. f_equal. apply Qround_even_comp. unfold add_ref. change (inject_Z 0) with 0%Q. ring.
Qed.
(** Same failures as the exact computation: only incompatible shapes. *)
Theorem C88_add_bad_shapes : forall nan l x,
  qadd_infer_f nan l x = Err EValueError <-> bshape (nd_shape x) (nd_shape (qa_b l)) = None.
Proof. intros nan l x. unfold qadd_infer_f, nd_bin. destruct (bshape _ _); split; congruence. Qed.

(** ** Matrix product *)
Lemma mm_build is iz W ws wz os oz : fair is -> fair ws -> fair os ->
  exists l, qmm_build_f is iz W ws wz os oz = Ok l /\ near (fm_M l) (is * ws / os) (4 * u53) /\
    fm_izp l = iz /\ fm_w l = W /\ fm_wzp l = wz /\ fm_ozp l = oz.
Proof.
  intros A B C. unfold qmm_build_f. destruct (py_div_f (fmul (Fin is) (Fin ws)) (Fin os)) as [m|x] eqn:E.
  - cbn [rbind]. eexists. split; [reflexivity|]. cbn. split; [exact (mult2 is ws os m A B C E)|]. repeat split.
  - exfalso. unfold py_div_f in E. destruct (Qeq_bool os 0) eqn:Z; [apply Qeq_bool_iff in Z; pose proof (fair_pos _ C); lra|discriminate].
Qed.
Definition mm_slack (is ws os : Q) (acc : Z) : Q := (u50 * (is * ws / os * inject_Z (Z.abs acc)))%Q.
Lemma mm_elem nan l m oz acc : posrange 600 m -> near (fm_M l) m (4 * u53) -> fm_ozp l = oz -> Z.abs acc <= 2 ^ 53 ->
  exists y, qmm1_f nan l acc = finish_f nan (Fin y) oz /\ (Qabs (y - m * inject_Z acc) <= u50 * (m * inject_Z (Z.abs acc)))%Q.
Proof.
  intros R N Z H. pose proof (posrange_pos _ _ R) as P.
  destruct (near_mulZ _ m (4 * u53) acc ltac:(split; discriminate) N H (big_ok 600 m acc ltac:(lia) R ltac:(lia))) as (_ & y & Y1 & _ & Y3).
  exists y. unfold qmm1_f. rewrite Y1, Z. split; [reflexivity|]. eapply Qle_trans; [exact Y3|].
  rewrite Qabs_Qmult, (Qabs_pos m), absQ_inj by lra. apply Qmult_le_compat_r; [discriminate|].
  apply Qmult_le_0_compat; [lra|]. apply (proj1 (Zle_inj 0 _)). lia.
Qed.
Lemma mm_range is ws os : fair is -> fair ws -> fair os -> posrange 600 (is * ws / os).
Proof. intros A B C. apply (posrange_div 400 200); [apply (posrange_mul 200 200)|]; apply fair_range; assumption. Qed.
Lemma mm_row nan l x : (forall w, In w (fm_w l) -> length w = length x) ->
  qmm_infer_f nan l (T1 x) = Ok (T1 (map (fun w => qmm1_f nan l (i32 (sumZ_upto (length x) (fun i => (nth i x 0 - fm_izp l) * (nth i w 0 - fm_wzp l))))) (fm_w l))).
Proof.
  intros H. cbn [qmm_infer_f]. unfold qmm_row_f.
  rewrite (mapM_ok_map _ (fun w => i32 (sumZ_upto (length x) (fun i => (nth i x 0 - fm_izp l) * (nth i w 0 - fm_wzp l))))); [cbn [rbind]; now rewrite map_map|].
  intros w Hw. apply dot32_ok. auto.
Qed.
(** Loading succeeds, the layer answers, and every code is within half a code, plus the slack, of the clipped real value; away from half-integers it
    is the code of the exact computation. *)
Theorem C88_matmul : forall nan is iz W ws wz os oz x,
  fair is -> fair ws -> fair os -> uint8 oz -> (forall w, In w W -> length w = length x) ->
  exists l y, qmm_build_f is iz W ws wz os oz = Ok l /\ qmm_infer_f nan l (T1 x) = Ok (T1 y) /\ length y = length W /\
  forall j w q, nth_error W j = Some w -> nth_error y j = Some q ->
    uint8 q /\
    let acc := exact_acc iz wz x w 0 in
    (- 2 ^ 31 <= acc <= 2 ^ 31 - 1 ->
     let v := (is * ws / os * inject_Z acc)%Q in
     (Qabs (inject_Z q - clampQ 0 255 (v + inject_Z oz)) <= (1#2) + mm_slack is ws os acc)%Q /\
     ((forall k, (mm_slack is ws os acc < Qabs (v - (inject_Z k + (1#2))))%Q) -> q = clamp 0 255 (Qround_even v + oz))).
Proof.
  intros nan is iz W ws wz os oz x Fi Fw Fo Ho HW.
  destruct (mm_build is iz W ws wz os oz Fi Fw Fo) as (l & L1 & L2 & L3 & L4 & L5 & L6).
  exists l. rewrite <- L4 in HW. rewrite (mm_row nan l x HW). eexists. split; [exact L1|]. split; [reflexivity|].
  split; [now rewrite map_length, L4|]. intros j w q Hw Hq. rewrite L4, nth_error_map, Hw in Hq. cbn in Hq.
  match type of Hq with Some ?t = _ => assert (E : q = t) by congruence end. clear Hq. rewrite L3, L5 in E.
  set (a := i32 _) in E.
  assert (A53 : Z.abs a <= 2 ^ 53). { unfold a, i32. pose proof (wrap_s_range 32 (sumZ_upto (length x) (fun i : nat => (nth i x 0 - iz) * (nth i w 0 - wz))) ltac:(lia)). lia. }
  destruct (mm_elem nan l _ oz a (mm_range is ws os Fi Fw Fo) L2 L6 A53) as (y & Y1 & Y2).
  rewrite E, Y1. destruct (finish_error nan y _ _ oz Ho Y2) as (U & B). split; [exact U|]. intros acc Hacc v.
  assert (EA : a = acc). { unfold a, acc, exact_acc. rewrite Z.add_0_r. apply i32_id. unfold acc, exact_acc in Hacc. rewrite Z.add_0_r in Hacc. exact Hacc. }
  rewrite EA in Y2, B. fold v in Y2, B. split; [exact B|]. intros K.
  rewrite finish_fin by exact Ho. rewrite (round_stable _ _ _ Y2 K). symmetry. apply clamp_clip. lia.
Qed.
Theorem C88_matmul_batch : forall nan l xs ys,
  qmm_infer_f nan l (T2 xs) = Ok (T2 ys) <-> Forall2 (fun x y => qmm_infer_f nan l (T1 x) = Ok (T1 y)) xs ys.
Proof.
  intros nan l xs ys. cbn [qmm_infer_f]. split.
  - destruct (mapM (qmm_row_f nan l) xs) as [zs|] eqn:E; [|discriminate]. cbn [rbind]. intros H.
    assert (zs = ys) by congruence. subst zs. apply mapM_inv in E.
    induction E as [|a b xs ys A _ IH]; constructor; [now rewrite A|]. apply IH. reflexivity.
  - intros H. assert (E : mapM (qmm_row_f nan l) xs = Ok ys); [|now rewrite E].
    apply mapM_inv. induction H as [|a b xs ys A _ IH]; constructor; [|exact IH].
    destruct (qmm_row_f nan l a) as [z|]; [|discriminate]. cbn [rbind] in A. congruence.
Qed.

(** ** Zero output scale *)
(** The matrix product refuses to load; the addition answers with saturated codes, and whatever the platform makes of NaN for a zero sum. *)
Theorem C88_zero_scale : forall nan is iz W b bs bz ws wz os oz, (os == 0)%Q ->
  qmm_build_f is iz W ws wz os oz = Err EZeroDivision /\
  (fair is -> fair bs -> uint8 iz -> uint8 bz -> uint8 oz -> forall x r, (forall i, uint8 (nd_get x i)) -> (forall i, uint8 (nd_get b i)) ->
   qadd_infer_f nan (mkqadd is iz b bs bz os oz) x = Ok r -> forall idx,
   let v := nd_get x (bidx (nd_shape x) idx) - iz in let w := nd_get b (bidx (nd_shape b) idx) - bz in
   (0 <= v -> 0 <= w -> 0 < v + w -> nd_get r idx = 255) /\
   (v <= 0 -> w <= 0 -> v + w < 0 -> nd_get r idx = 0) /\
   (v = 0 -> w = 0 -> nd_get r idx = nan)).
Proof.
  intros nan is iz W b bs bz ws wz os oz Z0. apply Qeq_bool_iff in Z0 as ZB. split.
  { unfold qmm_build_f, py_div_f. now rewrite ZB. }
  intros Fi Fb Hi Hb Ho x r Hx Hw H idx v w. unfold qadd_infer_f, nd_bin in H. cbn [qa_b] in H.
  destruct (bshape (nd_shape x) (nd_shape b)) as [s|] eqn:S; [|discriminate].
  match type of H with Ok ?t = _ => assert (E : r = t) by congruence end. clear H. subst r. cbn [nd_get].
  unfold qadd1_f. cbn [qa_is qa_izp qa_bs qa_bzp qa_os qa_ozp]. rewrite !u8_center by (auto; apply Hx || apply Hw). fold v w.
  pose proof (fair_pos _ Fi) as Pi. pose proof (fair_pos _ Fb) as Pb.
  assert (V53 : Z.abs v <= 2 ^ 53) by (apply center_small; [apply Hx|exact Hi]). assert (W53 : Z.abs w <= 2 ^ 53) by (apply center_small; [apply Hw|exact Hb]).
  destruct (term_near is v Fi V53) as (N1 & E1 & B1). destruct (term_near bs w Fb W53) as (N2 & E2 & B2).
  destruct N1 as (p & -> & RP & DP). destruct N2 as (t & -> & RT & DT).
  rewrite E1 in DP, B1. rewrite E2 in DT, B2.
  set (P := (is * inject_Z (Z.abs v))%Q) in *. set (T := (bs * inject_Z (Z.abs w))%Q) in *.
  assert (P0 : (0 <= P)%Q) by (apply Qmult_le_0_compat; [lra|apply (proj1 (Zle_inj 0 _)); lia]).
  assert (T0 : (0 <= T)%Q) by (apply Qmult_le_0_compat; [lra|apply (proj1 (Zle_inj 0 _)); lia]).
  assert (DP2 : (u53 * P <= (1#4) * P)%Q) by (apply Qmult_le_compat_r; [discriminate|exact P0]).
  assert (DT2 : (u53 * T <= (1#4) * T)%Q) by (apply Qmult_le_compat_r; [discriminate|exact T0]).
  apply Qabs_Qle_condition in DP. apply Qabs_Qle_condition in DT.
  assert (PL : v <> 0 -> (pow2 (-200) <= P)%Q).
  { intros NZ. unfold P. apply Qle_trans with (is * 1)%Q; [rewrite Qmult_1_r; apply (fair_range _ Fi)|].
    rewrite !(Qmult_comm is). apply Qmult_le_compat_r; [|lra]. apply (proj1 (Zle_inj 1 _)). lia. }
  assert (TL : w <> 0 -> (pow2 (-200) <= T)%Q).
  { intros NZ. unfold T. apply Qle_trans with (bs * 1)%Q; [rewrite Qmult_1_r; apply (fair_range _ Fb)|].
    rewrite !(Qmult_comm bs). apply Qmult_le_compat_r; [|lra]. apply (proj1 (Zle_inj 1 _)). lia. }
  assert (BIG : (Qabs (p + t) <= pow2 1023)%Q).
  { eapply Qle_trans; [apply Qabs_triangle|]. assert (X : (pow2 300 <= pow2 1020)%Q) by (apply pow2_mono; lia).
    assert (X3 : (pow2 1023 == pow2 1020 * 8)%Q) by (change 1023 with (1020 + 3); rewrite pow2_plus; reflexivity).
    assert (AP : (Qabs p <= 2 * P)%Q).
    { apply Qabs_Qle_condition. assert (K : (- P <= is * inject_Z v <= P)%Q) by (apply Qabs_Qle_condition; rewrite E1; apply Qle_refl). lra. }
    assert (AT : (Qabs t <= 2 * T)%Q).
    { apply Qabs_Qle_condition. assert (K : (- T <= bs * inject_Z w <= T)%Q) by (apply Qabs_Qle_condition; rewrite E2; apply Qle_refl). lra. }
    lra. }
  unfold fadd. rewrite rnd_fin by exact BIG. unfold fdiv. rewrite ZB.
  assert (HALF : (pow2 (-201) * 2 == pow2 (-200))%Q) by (change (-200) with (-201 + 1); rewrite pow2_plus; reflexivity). pose proof (pow2_pos (-201)) as P201.
  split; [|split].
  - intros V0 W0 VW. assert (EP : (is * inject_Z v == P)%Q) by (unfold P; now rewrite Z.abs_eq by exact V0). assert (ET : (bs * inject_Z w == T)%Q) by (unfold T; now rewrite Z.abs_eq by exact W0).
    assert (PT : (pow2 (-200) <= P + T)%Q) by (destruct (Z.eq_dec v 0) as [Q0|Q0]; [specialize (TL ltac:(lia)); lra|specialize (PL Q0); lra]).
    assert (G : (pow2 (-201) <= fl64 (p + t))%Q) by (apply fl_big_ge; [lia|lra]).
    destruct (Qeq_bool (fl64 (p + t)) 0) eqn:E; [apply Qeq_bool_iff in E; lra|].
    assert (NG : Qneg (fl64 (p + t)) = false) by (apply Qneg_false; lra). rewrite NG. now rewrite finish_inf.
  - intros V0 W0 VW. assert (EP : (is * inject_Z v == - P)%Q) by (unfold P; rewrite Z.abs_neq by exact V0; rewrite inject_Z_opp; ring).
    assert (ET : (bs * inject_Z w == - T)%Q) by (unfold T; rewrite Z.abs_neq by exact W0; rewrite inject_Z_opp; ring).
    assert (PT : (pow2 (-200) <= P + T)%Q) by (destruct (Z.eq_dec v 0) as [Q0|Q0]; [specialize (TL ltac:(lia)); lra|specialize (PL Q0); lra]).
    assert (G : (fl64 (p + t) <= - pow2 (-201))%Q) by (apply fl_big_le; [lia|lra]).
    destruct (Qeq_bool (fl64 (p + t)) 0) eqn:E; [apply Qeq_bool_iff in E; lra|].
    assert (NG : Qneg (fl64 (p + t)) = true) by (apply Qneg_spec; lra). rewrite NG. now rewrite finish_inf.
  - intros V0 W0. assert (EP : (P == 0)%Q) by (unfold P; rewrite V0; change (inject_Z (Z.abs 0)) with 0%Q; ring).
    assert (ET : (T == 0)%Q) by (unfold T; rewrite W0; change (inject_Z (Z.abs 0)) with 0%Q; ring).
    assert (Z1 : (p + t == 0)%Q).
    { rewrite V0 in DP. rewrite W0 in DT. change (inject_Z 0) with 0%Q in DP, DT. lra. }
    unfold fl64. rewrite (fl_0' 53 (-1074)) by exact Z1. reflexivity.
Qed.

(** ** The slack is needed *)
Lemma fair_f0_1 : fair f0_1.
Proof. split; [exists 3602879701896397, (-55); (split; [lia|split; [lia|vm_compute; reflexivity]])|split; vm_compute; discriminate]. Qed.
Lemma fair_1 : fair 1.
Proof. split; [exists 1, 0; (split; [lia|split; [lia|vm_compute; reflexivity]])|split; vm_compute; discriminate]. Qed.
(** With the double nearest 0.1 as input scale and unit other scales, five input steps are worth a little over 1/2: the exact code is 1 and the
    double code is 0, for the addition as for the product. *)
Theorem C88_tie_refuted : forall nan,
  fair f0_1 /\ fair 1 /\
  (exists r e, qadd_infer_f nan (mkqadd f0_1 0 (nd_of_list 0 [7]) 1 7 1 0) (nd_of_list 0 [5]) = Ok r /\
               qadd_infer (mkqadd f0_1 0 (nd_of_list 0 [7]) 1 7 1 0) (nd_of_list 0 [5]) = Ok e /\
               nd_get r [0%nat] = 0 /\ nd_get e [0%nat] = 1) /\
  (exists l, qmm_build_f f0_1 0 [[1]] 1 0 1 0 = Ok l /\ qmm_infer_f nan l (T1 [5]) = Ok (T1 [0]) /\
             qmm_infer (qmm_build f0_1 0 [[1]] 1 0 1 0) (T1 [5]) = Ok (T1 [1])).
Proof.
  intros nan. split; [exact fair_f0_1|]. split; [exact fair_1|]. split.
  - eexists. eexists. split; [reflexivity|]. split; [reflexivity|]. split; vm_compute; reflexivity.
  - eexists. split; [vm_compute; reflexivity|]. split; vm_compute; reflexivity.
Qed.

(** The hypotheses are met by ordinary layers. *)
Definition f0_05 : Q := 3602879701896397 # 2^56.
Lemma fair_f0_05 : fair f0_05.
Proof. split; [exists 3602879701896397, (-56); (split; [lia|split; [lia|vm_compute; reflexivity]])|split; vm_compute; discriminate]. Qed.
Lemma fair_8 : fair (1#8).
Proof. split; [exists 1, (-3); (split; [lia|split; [lia|vm_compute; reflexivity]])|split; vm_compute; discriminate]. Qed.
Example C88_example : forall nan,
  fair f0_1 /\ fair f0_05 /\ fair (1#8) /\
  (exists r, qadd_infer_f nan (mkqadd f0_1 120 (nd_of_list 0 [10; 200; 7]) f0_05 100 (1#8) 128) (nd_of_list 0 [0; 20; 220]) = Ok r /\
     map (nd_get r) [[0%nat]; [1%nat]; [2%nat]] = [0; 88; 171]) /\
  (exists l, qmm_build_f f0_1 120 [[130; 99; 140]; [0; 255; 3]] f0_05 128 (1#8) 10 = Ok l /\
     qmm_infer_f nan l (T2 [[121; 119; 200]; [0; 255; 10]]) = Ok (T2 [[50; 0]; [0; 255]])).
Proof.
  intros nan. split; [exact fair_f0_1|]. split; [exact fair_f0_05|]. split; [exact fair_8|]. split.
  - eexists. split; [reflexivity|]. vm_compute. reflexivity.
  - eexists. split; [vm_compute; reflexivity|]. vm_compute. reflexivity.
Qed.
(** The separation hypothesis of C88_add_agrees and C88_matmul holds there: -12 * 8/10 is not near a half-integer. *)
Example C88_example_separated : forall k,
  (add_slack f0_1 120 f0_05 100 (1#8) 0 10 < Qabs (add_ref f0_1 120 f0_05 100 (1#8) 0 0 10 - (inject_Z k + (1#2))))%Q /\
  (mm_slack f0_1 f0_05 (1#8) 1021 < Qabs (f0_1 * f0_05 / (1#8) * inject_Z 1021 - (inject_Z k + (1#2))))%Q.
Proof.
  assert (G : forall s r n, (s < (1#4))%Q -> (Qabs (r - inject_Z n) <= 1#4)%Q -> forall k, (s < Qabs (r - (inject_Z k + (1#2))))%Q).
  { intros s r n Hs Hr k. apply Qlt_le_trans with (1#4); [exact Hs|]. apply Qabs_Qle_condition in Hr. destruct (Z_le_gt_dec n k) as [L|L].
    - apply Zle_inj in L. rewrite Qabs_neg; lra.
    - assert (L2 : k + 1 <= n) by lia. apply Zle_inj in L2. rewrite inject_Z_plus in L2. change (inject_Z 1) with 1%Q in L2. rewrite Qabs_pos; lra. }
  intros k. split.
  - apply (G _ _ (-132)); vm_compute; [reflexivity|discriminate].
  - apply (G _ _ 41); vm_compute; [reflexivity|discriminate].
Qed.
