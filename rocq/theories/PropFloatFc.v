(** Property C74: the fixed-point multipliers and the fully connected layer with binary64 scale arithmetic. *)
From Verif Require Import Base BaseProofs DtypeModel QuantModel QuantProofs FcModel FcProofs FcLayer PropCore PropFc
  FloatModel FloatProofs FloatQuant PropFloat FloatFcModel.
From Coq Require Import Lqa Qpower.
Open Scope Z_scope.
Open Scope list_scope.

(** ** Specification vocabulary *)
Definition u50 : Q := 1 # 1125899906842624.

(** ** frexp, the scaling by 2^31 and round are exact *)
Lemma frexp_rep x : rep64 x -> ~ (x == 0)%Q -> rep64 (x / pow2 (frexp_exp x) * inject_Z (2 ^ 31))%Q.
Proof.
  intros (m & e & A & B & C) N. pose proof (pow2_pos (frexp_exp x)) as P.
  exists m, (e - frexp_exp x + 31). split; [lia|]. split.
  - assert (frexp_exp x <= e + 54).
    { apply frexp_exp_le; [exact N|]. rewrite C, Qabs_Qmult. pose proof (pow2_pos e) as Pe.
      rewrite (Qabs_pos (pow2 e)) by lra. rewrite pow2_plus, (Qmult_comm (pow2 e)). apply Qmult_lt_compat_r; [exact Pe|].
      change (Qabs (inject_Z m)) with (inject_Z (Z.abs m)). change (pow2 54) with (inject_Z (2 ^ 54)). apply (proj1 (Zlt_inj _ _)). lia. }
    lia.
  - rewrite pow2_plus, pow2_sub, C at 1. change (pow2 31) with (inject_Z (2 ^ 31)). field. lra.
Qed.
Lemma two31 : f_of_Z (2 ^ 31) = Fin (inject_Z (2 ^ 31)).
Proof. vm_compute. reflexivity. Qed.
Lemma round31 x : rep64 x -> ~ (x == 0)%Q ->
  py_round_f (fmul (Fin (x / pow2 (frexp_exp x))%Q) (f_of_Z (2 ^ 31))) = Ok (Qround_even (x / pow2 (frexp_exp x) * inject_Z (2 ^ 31))%Q).
Proof.
  intros D N. rewrite two31. cbn [fmul]. destruct (frexp_exp_spec x N) as (_ & F2). pose proof (pow2_pos (frexp_exp x)) as P.
  rewrite rnd_fin.
  - cbn [py_round_f]. f_equal. apply Qround_even_comp. apply (fl_exact 53 (-1074) p64). now apply frexp_rep.
  - rewrite Qabs_Qmult. unfold Qdiv. rewrite Qabs_Qmult. rewrite (Qabs_pos (/ pow2 _)) by (apply Qlt_le_weak, Qinv_lt_0_compat; exact P).
    assert (L : (Qabs x * / pow2 (frexp_exp x) <= 1)%Q) by (apply Qle_shift_div_r; [exact P|lra]).
    apply Qle_trans with (1 * inject_Z (2 ^ 31))%Q; [apply Qmult_le_compat_r; [exact L|discriminate]|]. apply Qle_trans with (pow2 31); [discriminate|].
    apply pow2_mono. lia.
Qed.

(** The float multiplier of a positive double at or above 1e-6 is the exact construction on it. *)
Lemma mult_f_exact m : rep64 m -> ((1 # 1000000) <= m)%Q -> forall si sw so,
  py_div_f (fmul si sw) so = Ok (Fin m) -> fc_mult_build_f si sw so = fc_mult_build m.
Proof.
  intros D L si sw so E. unfold fc_mult_build_f. rewrite E. cbn [rbind f_ltb].
  assert (B : Qle_bool f1e_6 m = true). { apply Qle_bool_iff. apply Qle_trans with (1 # 1000000); [vm_compute; discriminate|exact L]. }
  rewrite B. cbn [negb]. assert (N : ~ (m == 0)%Q) by (intros Z0; rewrite Z0 in L; vm_compute in L; apply L; reflexivity).
  unfold fc_mult_build. destruct (Qlt_le_dec m (1 # 1000000)) as [Lt|_]; [exfalso; apply (Qlt_not_le _ _ Lt L)|].
  cbn [frexp_f]. rewrite (frexp_eq m N). rewrite (round31 m D N). cbn [rbind]. reflexivity.
Qed.

Lemma rel_bound x : (pow2 (-1022) <= x)%Q -> (x * (1 - pow2 (-53)) <= fl64 x <= x * (1 + pow2 (-53)))%Q.
Proof.
  intros H. assert (P : (0 < x)%Q) by (eapply Qlt_le_trans; [apply (pow2_pos (-1022))|exact H]).
  pose proof (fl_rel_normal 53 (-1074) x) as R. rewrite (Qabs_pos x) in R by lra. specialize (R H).
  apply Qabs_Qle_condition in R. change (- (53)) with (-53) in R. change (fl 53 (-1074) x) with (fl64 x) in R. split; lra.
Qed.
(** The computed multiplier: relative error below 2^-51. *)
Lemma mult_value si sw so : (0 < so)%Q -> (two_to (-1022) <= si * sw <= two_to 1022)%Q ->
  ((1000001 # 1000000000000) <= si * sw / so)%Q -> (si * sw / so < inject_Z (2 ^ 30 - 1))%Q ->
  exists m, py_div_f (fmul (Fin si) (Fin sw)) (Fin so) = Ok (Fin m) /\ rep64 m /\
    let M := (si * sw / so)%Q in (M * (1 - (1 # 2251799813685248)) <= m <= M * (1 + (1 # 2251799813685248)))%Q.
Proof.
  intros P (L1 & L2) B1 B2. set (a := (si * sw)%Q) in *. change (two_to (-1022)) with (pow2 (-1022)) in L1. change (two_to 1022) with (pow2 1022) in L2.
  assert (Pa : (0 < a)%Q) by (eapply Qlt_le_trans; [apply (pow2_pos (-1022))|exact L1]).
  destruct (rel_bound a L1) as (R1 & R2).
  assert (E53 : (pow2 (-53) == 1 # 9007199254740992)%Q) by (vm_compute; reflexivity). rewrite E53 in R1, R2.
  assert (Fa : fmul (Fin si) (Fin sw) = Fin (fl64 a)).
  { cbn [fmul]. apply rnd_fin. fold a. rewrite Qabs_pos by lra. eapply Qle_trans; [exact L2|]. apply pow2_mono. lia. }
  set (b := fl64 a) in *.
  assert (Q1 : (a / so * (1 - (1 # 9007199254740992)) <= b / so)%Q).
  { setoid_replace (a / so * (1 - (1 # 9007199254740992)))%Q with (a * (1 - (1 # 9007199254740992)) / so)%Q by (field; lra). apply Qmult_le_compat_r; [exact R1|].
    apply Qlt_le_weak, Qinv_lt_0_compat, P. }
  assert (Q2 : (b / so <= a / so * (1 + (1 # 9007199254740992)))%Q).
  { setoid_replace (a / so * (1 + (1 # 9007199254740992)))%Q with (a * (1 + (1 # 9007199254740992)) / so)%Q by (field; lra). apply Qmult_le_compat_r; [exact R2|].
    apply Qlt_le_weak, Qinv_lt_0_compat, P. }
  set (M := (a / so)%Q) in *. set (c := (b / so)%Q) in *. clearbody M.
  assert (c0 : (pow2 (-1022) <= c)%Q). { apply Qle_trans with (1 # 2000000); [vm_compute; discriminate|]. lra. }
  destruct (rel_bound c c0) as (S1 & S2). rewrite E53 in S1, S2.
  exists (fl64 c). split; [|split; [apply (rep_fl 53 (-1074) p64)|]].
  - rewrite Fa. unfold py_div_f. destruct (Qeq_bool so 0) eqn:E; [apply Qeq_bool_iff in E; lra|]. unfold fdiv. rewrite E. f_equal. change (b / so)%Q with c. clearbody c.
    apply rnd_fin. rewrite Qabs_pos by (apply Qlt_le_weak, (Qlt_le_trans _ _ _ (pow2_pos (-1022)) c0)).
    apply Qle_trans with (pow2 32); [|apply pow2_mono; lia]. change (pow2 32) with (inject_Z (2 ^ 32)). change (inject_Z (2 ^ 30 - 1)) with (1073741823 # 1) in B2.
    change (inject_Z (2 ^ 32)) with (4294967296 # 1). lra.
  - cbv zeta. split; lra.
Qed.

(** ** C74 *)
(** Built from double scales, the layer's codes are within half a step plus a relative 2^-31 + 2^-50 of the saturated exact result. *)
Theorem C74_accuracy : forall si zx sw zw W bias so zo d x,
  (0 < so)%Q -> (two_to (-1022) <= si * sw <= two_to 1022)%Q ->
  let M := (si * sw / so)%Q in
  ((1000001 # 1000000000000) <= M)%Q -> (M < inject_Z (2 ^ 30 - 1))%Q ->
  good_shapes W bias x -> gmin d <= gmax d -> Z.abs zo <= 2 ^ 62 ->
  exists l y, fc_build_f (Fin si) zx (Fin sw) zw W bias (Fin so) zo d = Ok l /\ fc_infer l (T1 x) = Ok (T1 y) /\ length y = length W /\
  forall j, (j < length W)%nat ->
    let acc := exact_acc zx zw x (nth j W []) (nth j bias 0) in
    Z.abs acc <= 2 ^ 31 ->
    (Qabs (inject_Z (nth j y 0%Z) - clampQ (gmin d) (gmax d) (inject_Z zo + M * inject_Z acc))
     <= (1#2) + inject_Z (Z.abs acc) * (M * (u31 + u50)))%Q.
Proof.
  intros si zx sw zw W bias so zo d x P R M B1 B2 GS Hd Hz.
  destruct (mult_value si sw so P R B1 B2) as (m & E & Rm & V). cbv zeta in V. fold M in V. destruct V as (V1 & V2).
  assert (Lm : ((1 # 1000000) <= m)%Q) by lra.
  assert (Um : (m < pow2 30 * (1 - pow2 (-32)))%Q).
  { apply Qlt_le_trans with (1073741823 + (1 # 2))%Q; [change (inject_Z (2 ^ 30 - 1)) with (1073741823 # 1) in B2; lra|vm_compute; discriminate]. }
  pose proof (mult_f_exact m Rm Lm _ _ _ E) as EM. destruct (proj2 (fc_mult_ok_iff m) Um) as (f & F). rewrite F in EM.
  assert (Bl : fc_build m zx 1 zw W bias 1 zo d = Ok (mkfc zx (map (map (fun w => i64 (w - zw))) W) bias f zo d)).
  { unfold fc_build. rewrite fc_mult_of_nz by (intros Z1; discriminate Z1). assert (X : fc_mult_build (m * 1 / 1)%Q = Ok f).
    { rewrite <- F. assert (Eq : (m * 1 / 1 == m)%Q) by field. unfold fc_mult_build.
      destruct (Qlt_le_dec (m * 1 / 1) (1 # 1000000)), (Qlt_le_dec m (1 # 1000000)); try lra.
      assert (N1 : ~ (m == 0)%Q) by lra. assert (N2 : ~ (m * 1 / 1 == 0)%Q) by lra. rewrite (frexp_eq _ N1), (frexp_eq _ N2).
      rewrite (frexp_exp_comp _ _ Eq N2).
      rewrite (Qround_even_comp (m * 1 / 1 / pow2 (frexp_exp m) * inject_Z (2 ^ 31)) (m / pow2 (frexp_exp m) * inject_Z (2 ^ 31))); [reflexivity|].
      now rewrite Eq. }
    rewrite X. reflexivity. }
  set (l := mkfc _ _ _ _ _ _) in Bl.
  assert (Lm' : ((1 # 1000000) <= m * 1 / 1)%Q) by (setoid_replace (m * 1 / 1)%Q with m by field; exact Lm).
  destruct (C15_requantization m zx 1 zw W bias 1 zo d l x Bl GS Hd Hz Lm') as (y & Y1 & Y2 & Y3).
  exists l, y. split; [unfold fc_build_f; rewrite EM; reflexivity|]. split; [exact Y1|]. split; [exact Y2|].
  intros j Hj acc Ha. destruct (Y3 j Hj Ha) as (v & -> & Ev). fold acc in Ev. apply clampQ_close; [exact Hd|].
  assert (Em : (m * 1 / 1 == m)%Q) by field. rewrite Em in Ev.
  set (A := inject_Z (Z.abs acc)). assert (A0 : (0 <= A)%Q) by (apply (proj1 (Zle_inj 0 _)); lia).
  assert (T : (Qabs ((m - M) * inject_Z acc) <= M * (1 # 2251799813685248) * A)%Q).
  { rewrite Qabs_Qmult. change (Qabs (inject_Z acc)) with A. apply Qmult_le_compat_r; [|exact A0]. apply Qabs_Qle_condition. split; lra. }
  setoid_replace (inject_Z v - (inject_Z zo + M * inject_Z acc))%Q
    with ((inject_Z v - (inject_Z zo + m * inject_Z acc)) + (m - M) * inject_Z acc)%Q by ring.
  eapply Qle_trans; [apply Qabs_triangle|]. fold A in Ev.
  assert (Mm : (A * (m * u31) <= A * (M * (1 + (1 # 2251799813685248)) * u31))%Q).
  { rewrite !(Qmult_comm A). apply Qmult_le_compat_r; [|exact A0]. apply Qmult_le_compat_r; [exact V2|discriminate]. }
  assert (AM : (0 <= A * M)%Q) by (apply Qmult_le_0_compat; lra).
  setoid_replace (A * (M * (1 + (1 # 2251799813685248)) * u31))%Q with (A * M * ((1 + (1 # 2251799813685248)) * u31))%Q in Mm by ring.
  setoid_replace (M * (1 # 2251799813685248) * A)%Q with (A * M * (1 # 2251799813685248))%Q in T by ring.
  setoid_replace (A * (M * (u31 + u50)))%Q with (A * M * (u31 + u50))%Q by ring.
  set (AM' := (A * M)%Q) in *. clearbody AM'. unfold u31, u50 in *. lra.
Qed.

(** Scales whose ratio is below 1e-6: every neuron answers the output zero point. *)
Theorem C74_silent : forall si zx sw zw W bias so zo d x,
  (0 < so)%Q -> (two_to (-1022) <= si * sw <= two_to 1022)%Q -> (si * sw / so <= (999999 # 1000000000000))%Q ->
  good_shapes W bias x -> gmin d <= gmax d -> Z.abs zo <= 2 ^ 62 ->
  exists l, fc_build_f (Fin si) zx (Fin sw) zw W bias (Fin so) zo d = Ok l /\
    fc_infer l (T1 x) = Ok (T1 (repeat (clamp (gmin d) (gmax d) zo) (length W))).
Proof.
  intros si zx sw zw W bias so zo d x P (L1 & L2) HM GS Hd Hz.
  change (two_to (-1022)) with (pow2 (-1022)) in L1. change (two_to 1022) with (pow2 1022) in L2. set (a := (si * sw)%Q) in *.
  assert (Pa : (0 < a)%Q) by (eapply Qlt_le_trans; [apply (pow2_pos (-1022))|exact L1]).
  destruct (rel_bound a L1) as (R1 & R2). assert (E53 : (pow2 (-53) == 1 # 9007199254740992)%Q) by (vm_compute; reflexivity). rewrite E53 in R1, R2.
  assert (Fa : fmul (Fin si) (Fin sw) = Fin (fl64 a)).
  { cbn [fmul]. apply rnd_fin. fold a. rewrite Qabs_pos by lra. eapply Qle_trans; [exact L2|]. apply pow2_mono. lia. }
  set (b := fl64 a) in *.
  assert (Q2 : (b / so <= a / so * (1 + (1 # 9007199254740992)))%Q).
  { setoid_replace (a / so * (1 + (1 # 9007199254740992)))%Q with (a * (1 + (1 # 9007199254740992)) / so)%Q by (field; lra).
    apply Qmult_le_compat_r; [exact R2|]. apply Qlt_le_weak, Qinv_lt_0_compat, P. }
  set (M := (a / so)%Q) in *. set (c := (b / so)%Q) in *. clearbody M.
  assert (c0 : (0 <= c)%Q) by (apply Qmult_le_0_compat; [lra|apply Qlt_le_weak, Qinv_lt_0_compat, P]).
  assert (c1 : (c <= 9999995 # 10000000000000)%Q) by lra.
  assert (E : py_div_f (fmul (Fin si) (Fin sw)) (Fin so) = Ok (Fin (fl64 c))).
  { rewrite Fa. unfold py_div_f. destruct (Qeq_bool so 0) eqn:E; [apply Qeq_bool_iff in E; lra|]. unfold fdiv. rewrite E. f_equal.
    change (b / so)%Q with c. clearbody c. apply rnd_fin. rewrite Qabs_pos by exact c0. apply Qle_trans with (pow2 0); [change (pow2 0) with 1%Q; lra|apply pow2_mono; lia]. }
  assert (Lt : f_ltb (Fin (fl64 c)) f1e_6 = true).
  { cbn [f_ltb]. apply negb_true_iff. destruct (Qle_bool f1e_6 (fl64 c)) eqn:B; [|reflexivity]. exfalso. apply Qle_bool_iff in B.
    pose proof (fl_mono 53 (-1074) p64 _ _ c1) as Mo. change (fl 53 (-1074) c) with (fl64 c) in Mo. pose proof (Qle_trans _ _ _ B Mo) as X.
    vm_compute in X. apply X. reflexivity. }
  assert (EM : fc_mult_build_f (Fin si) (Fin sw) (Fin so) = fc_mult_build 0).
  { unfold fc_mult_build_f. rewrite E. cbn [rbind]. rewrite Lt. reflexivity. }
  assert (F : fc_mult_build 0 = Ok (mkfia 0 31 (2 ^ 30))) by reflexivity.
  set (l := mkfc zx (map (map (fun w => i64 (w - zw))) W) bias (mkfia 0 31 (2 ^ 30)) zo d).
  assert (Bl : fc_build 0 zx 0 zw W bias 1 zo d = Ok l) by reflexivity.
  exists l. split; [unfold fc_build_f; rewrite EM, F; reflexivity|]. eapply C17_silent; [|exact Hd|exact Hz|exact Bl|exact GS]. reflexivity.
Qed.
(** FloatingIntegerApprox.__init__ loses nothing to float arithmetic: the exact construction, on every double. *)
Theorem C74_approx_exact : forall v, double v -> fia_init_f (Fin v) = fia_init v.
Proof.
  intros v D. unfold fia_init_f, fia_init. cbn [frexp_f]. destruct (Qeq_dec v 0) as [Z0|N].
  - unfold frexp. apply Qeq_bool_iff in Z0. rewrite Z0. vm_compute. reflexivity.
  - rewrite (frexp_eq v N). rewrite (round31 v (double_rep v D) N). reflexivity.
Qed.
Theorem C74_approx_special : forall n, fia_init_f (Inf n) = Err EOverflow /\ fia_init_f NaN = Err EValueError.
Proof. intros n. split; destruct n; vm_compute; reflexivity. Qed.
(** What an unusable scale raises. *)
Theorem C74_rejected : forall zx zw W bias zo d,
  (forall si sw z, (z == 0)%Q -> fc_build_f si zx sw zw W bias (Fin z) zo d = Err EZeroDivision) /\
  (forall si sw so, (0 < si)%Q -> (0 < sw)%Q -> (0 < so)%Q -> (two_to 1024 <= si * sw)%Q ->
     fc_build_f (Fin si) zx (Fin sw) zw W bias (Fin so) zo d = Err EOverflow) /\
  (forall sw so, (0 < so)%Q -> fc_build_f NaN zx sw zw W bias (Fin so) zo d = Err EValueError).
Proof.
  intros. split; [|split].
  - intros si sw z H. unfold fc_build_f, fc_mult_build_f, py_div_f. apply Qeq_bool_iff in H. rewrite H. reflexivity.
  - intros si sw so P1 P2 P3 H. unfold fc_build_f, fc_mult_build_f. cbn [fmul].
    assert (R : rnd (si * sw) = Inf false).
    { unfold rnd. pose proof (fl_big_ge (si * sw) 1024 ltac:(lia) H) as G. rewrite (Qabs_pos (fl64 _)) by (eapply Qle_trans; [apply Qlt_le_weak, (pow2_pos 1024)|exact G]).
      apply Qle_bool_iff in G as G'. rewrite G'. f_equal. apply Qneg_false. eapply Qle_trans; [apply Qlt_le_weak, (pow2_pos 1024)|exact G]. }
    rewrite R. unfold py_div_f. destruct (Qeq_bool so 0) eqn:E; [apply Qeq_bool_iff in E; lra|]. cbn [rbind fdiv].
    replace (Qneg so) with false by (symmetry; apply Qneg_false; lra). vm_compute. reflexivity.
  - intros sw so P. unfold fc_build_f, fc_mult_build_f, py_div_f. destruct (Qeq_bool so 0) eqn:E; [apply Qeq_bool_iff in E; lra|].
    assert (Nn : fdiv (fmul NaN sw) (Fin so) = NaN) by (destruct sw; reflexivity). rewrite Nn. vm_compute. reflexivity.
Qed.
(** The product of the two scales is rounded before the division: when it underflows, a layer whose multiplier is 2^-6 answers only its zero point. *)
Theorem C74_underflow_refuted :
  ~ (forall si sw so x, double si -> double sw -> double so -> (0 < si)%Q -> (0 < sw)%Q -> (0 < so)%Q ->
       ((1000001 # 1000000000000) <= si * sw / so)%Q -> (si * sw / so < inject_Z (2 ^ 30 - 1))%Q -> - 2 ^ 31 <= x <= 2 ^ 31 ->
       exists l y, fc_build_f (Fin si) 0 (Fin sw) 0 [[1]] [0] (Fin so) 0 int8 = Ok l /\ fc_infer l (T1 [x]) = Ok (T1 [y]) /\
       (Qabs (inject_Z y - clampQ (-128) 127 (si * sw / so * inject_Z x)) <= (1#2) + inject_Z (Z.abs x) * (si * sw / so * (u31 + u50)))%Q).
Proof.
  intros H. assert (Dp : forall e, -1074 <= e <= 971 -> double (two_to e)).
  { intros e He. exists 1, e. split; [reflexivity|]. split; [exact He|]. ring. }
  assert (Pe : forall e, (0 < two_to e)%Q) by exact pow2_pos.
  assert (G1 : ((1000001 # 1000000000000) <= two_to (-540) * two_to (-540) / two_to (-1074))%Q) by (vm_compute; discriminate).
  assert (G2 : (two_to (-540) * two_to (-540) / two_to (-1074) < inject_Z (2 ^ 30 - 1))%Q) by (vm_compute; reflexivity).
  assert (G3 : - 2 ^ 31 <= 6400 <= 2 ^ 31) by lia.
  destruct (H (two_to (-540)) (two_to (-540)) (two_to (-1074)) 6400 (Dp (-540) ltac:(lia)) (Dp (-540) ltac:(lia)) (Dp (-1074) ltac:(lia)) (Pe _) (Pe _) (Pe _) G1 G2 G3)
    as (l & y & B & I0 & E).
  vm_compute in B. injection B as <-. vm_compute in I0. injection I0 as <-. vm_compute in E. apply E. reflexivity.
Qed.
Example C74_example : exists l,
  fc_build_f (Fin (fl64 (1#10))) 3 (Fin (fl64 (1#20))) 0 [[10; -20; 30]; [1; 2; 3]] [100; -50] (Fin (fl64 (1#4))) (-5) int8 = Ok l /\
  good_shapes [[10; -20; 30]; [1; 2; 3]] [100; -50] [50; -7; 120] /\
  ((1000001 # 1000000000000) <= fl64 (1#10) * fl64 (1#20) / fl64 (1#4))%Q /\ fc_infer l (T1 [50; -7; 120]) = Ok (T1 [81; 2]).
Proof.
  eexists. split; [vm_compute; reflexivity|]. split; [split; [|reflexivity]; simpl; intros w [<- | [<- | []]]; reflexivity|].
  split; [vm_compute; discriminate|vm_compute; reflexivity].
Qed.
