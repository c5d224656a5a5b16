(** The engine running an LSTM file in binary64: error of every step (for PropFloatKLstm.v).  The structure is that of KLstmError.v. *)
From Verif Require Import Base BaseProofs DtypeModel DtypeProofs QuantModel QuantProofs LutModel LutProofs FcModel FcProofs FcLayer
  EngineModel EngineProofs DistModel DistProofs BuildModel PipeModel LstmModel KLstmModel PropCore PropFc PropEngine PropDist PropNodeLut PipeSpec PipeProofs
  LstmProofs PropLstm KLstmSpec KLstmProofs KLstmError
  FloatModel FloatProofs FloatQuant PropFloat FloatFcModel PropFloatFc FloatLstmModel FloatLstmProofs PropFloatLstm FloatLstmRun PropFloatLstmRun
  FloatKLstmModel FloatKLstmSpec.
From Coq Require Import Lqa Qminmax.
Open Scope Z_scope.
Open Scope list_scope.

(** ** tables *)
(** a code for x stands for anything near x that (almost) fits *)
Lemma rounds_close rho q c x r : (0 <= rho)%Q -> gmin q <= gmax q -> rounds rho q c x ->
  (inject_Z (gmin q) - ((1#2) + rho) <= r <= inject_Z (gmax q) + ((1#2) + rho))%Q ->
  (Qabs (inject_Z c - r) <= Qabs (x - r) + ((1#2) + rho))%Q.
Proof.
  intros R0 L (I & H) [R1 R2]. pose proof (Qle_Qabs (x - r)) as A. pose proof (Qle_Qabs (r - x)) as B. rewrite (Qabs_Qminus r x) in B.
  pose proof (Qabs_nonneg (x - r)) as N.
  destruct H as [H|[[E H]|[E H]]].
  - setoid_replace (inject_Z c - r)%Q with ((inject_Z c - x) + (x - r))%Q by ring. eapply Qle_trans; [apply Qabs_triangle|]. lra.
  - subst c. apply Qabs_Qle_condition. split; lra.
  - subst c. apply Qabs_Qle_condition. split; lra.
Qed.
Lemma entry_close rho q f inp out v c p eps L D : (0 <= rho)%Q -> gmin q <= gmax q -> node_good out q ->
  rounds rho q c (real_code (f (val inp v)) (n_scale out) (zp0 out)) -> fits_within rho out (f p) -> bounded_lip f L D ->
  (Qabs (val inp v - p) <= eps)%Q ->
  in_dtype q c /\ (Qabs (val out c - f p) <= L * eps + D + n_scale out * ((1#2) + rho))%Q.
Proof.
  intros R0 LE [Dt P _] RO F (L0 & D0 & _ & LI) HV. split; [apply RO|].
  unfold fits_within in F. cbv zeta in F. rewrite Dt in F.
  pose proof (rounds_close rho q c _ _ R0 LE RO F) as H.
  unfold val. apply scale_dist; [exact P|].
  set (so := n_scale out) in *. set (x := f (val inp v)) in *.
  assert (E : (Qabs (real_code x so (zp0 out) - real_code (f p) so (zp0 out)) <= (L * eps + D) / so)%Q).
  { unfold real_code. setoid_replace (x / so + inject_Z (zp0 out) - (f p / so + inject_Z (zp0 out)))%Q with ((x - f p) * / so)%Q by (field; lra).
    assert (PI : (0 < / so)%Q) by (apply Qinv_lt_0_compat, P).
    rewrite Qabs_Qmult, (Qabs_pos (/ so)) by lra. apply Qmult_le_compat_r; [|lra].
    eapply Qle_trans; [apply LI|]. apply Qplus_le_compat; [|lra]. rewrite !(Qmult_comm L). apply Qmult_le_compat_r; assumption. }
  assert (EE : ((L * eps + D + so * ((1#2) + rho)) / so == (L * eps + D) / so + ((1#2) + rho))%Q) by (field; lra).
  rewrite EE. lra.
Qed.
Lemma row_entries rho nd q f inp out a xs r : table_within rho nd q f inp out -> lut_from_node (n_lut nd) = Ok a -> (forall v, In v xs -> in_dtype q v) ->
  lut_row a xs = Ok r -> length r = length xs /\
  forall j, (j < length xs)%nat -> rounds rho q (nth j r 0) (real_code (f (val inp (nth j xs 0))) (n_scale out) (zp0 out)).
Proof.
  intros (a' & EA & T) LA Hx E. assert (a' = a) by congruence. subst a'. unfold lut_row in E. apply mapM_inv in E.
  apply (Forall2_nth_iff _ _ _ 0) in E as (LL & H). split; [exact LL|]. intros j Hj.
  assert (NE : nth_error xs j = Some (nth j xs 0)) by (apply nth_error_nth'; exact Hj).
  specialize (H j _ NE). cbv beta in H. destruct (T (nth j xs 0) ltac:(apply Hx, nth_In, Hj)) as (v & E1 & RO). assert (nth j r 0 = v) by congruence. congruence.
Qed.
Lemma table_covers rho nd q f inp out a : table_within rho nd q f inp out -> lut_from_node (n_lut nd) = Ok a -> covers a q.
Proof. intros (a' & EA & T) LA v Hv. assert (a' = a) by congruence. subst a'. destruct (T v Hv) as (c & E & _). eauto. Qed.
Lemma centred_within rho nd q rows n w : short q -> weights_within rho nd q rows n w ->
  exists C, centred nd = Ok C /\ length C = rows /\ (forall r, In r C -> length r = n) /\
    forall k j, (k < rows)%nat -> (j < n)%nat -> nth j (nth k C []) 0 = code nd k j - zp0 nd.
Proof.
  intros Hs ([Dt P (z & Z1 & Z2)] & [D1 D2] & W). unfold centred. rewrite Z1. eexists. split; [reflexivity|].
  split; [now rewrite map_length|]. split; [intros r Hr; apply in_map_iff in Hr as (r0 & <- & H0); rewrite map_length; now apply D2|].
  intros k j Hk Hj. assert (Lk : length (nth k (n_tensor nd) []) = n) by (apply D2, nth_In; lia).
  rewrite (nth_map_in _ (n_tensor nd) k []) by lia. rewrite (nth_map_in _ _ j 0) by lia. fold (code nd k j).
  destruct (W k j Hk Hj) as [I _]. pose proof (short_diff q _ _ Hs I Z2). unfold zp0. rewrite Z1. apply i64_id. lia.
Qed.
Lemma fia_small_f v : rep64 v -> (0 < v)%Q -> (v <= inject_Z (2 ^ 29))%Q -> exists f, fia_init_f (Fin v) = Ok f.
Proof.
  intros R P H. assert (E : fia_init_f (Fin v) = fia_init v).
  { unfold fia_init_f, fia_init. cbn [frexp_f]. destruct (Qeq_dec v 0) as [Z0|N]; [lra|]. rewrite (frexp_eq v N). rewrite (round31 v R N). reflexivity. }
  rewrite E. apply fia_ok_iff; [exact P|]. eapply Qle_lt_trans; [exact H|]. reflexivity.
Qed.
Lemma row_run_nth_F eng : forall xs h c ss, row_run_f eng h c xs = Ok ss -> forall t, (t < length xs)%nat ->
  step_row_f eng (prev_h h ss t) (prev_c c ss t) (nth t xs []) = Ok (nth t ss dstep).
Proof.
  induction xs as [|x xs IH]; intros h c ss H t Ht; [cbn in Ht; lia|]. cbn [row_run_f] in H.
  destruct (step_row_f eng h c x) as [s0|] eqn:E0; [|discriminate]. cbn [rbind] in H.
  destruct (row_run_f eng (s_hidden s0) (s_cell s0) xs) as [ss0|] eqn:E1; [|discriminate]. cbn [rbind] in H.
  assert (ss = s0 :: ss0) by congruence. subst ss. destruct t as [|t]; [exact E0|].
  cbn [nth]. specialize (IH _ _ _ E1 t ltac:(cbn in Ht; lia)). destruct t as [|t]; exact IH.
Qed.

(** ** sizes *)
Lemma code_abs nd q0 c : short q0 -> node_good nd q0 -> in_dtype q0 c -> Z.abs (c - zp0 nd) <= 2 ^ 16.
Proof. intros Hs [_ _ (z & Z1 & Z2)] Hc. unfold zp0. rewrite Z1. eapply short_diff; eassumption. Qed.
Lemma le53 z : Z.abs z <= 2 ^ 16 -> Z.abs z <= 2 ^ 53.
Proof. intros H. eapply Z.le_trans; [exact H|discriminate]. Qed.
Lemma abs_prod32 a b : Z.abs a <= 2 ^ 16 -> Z.abs b <= 2 ^ 16 -> Z.abs (a * b) <= 2 ^ 32.
Proof. intros A B. rewrite Z.abs_mul. change (2 ^ 32) with (2 ^ 16 * 2 ^ 16). apply Z.mul_le_mono_nonneg; try apply Z.abs_nonneg; assumption. Qed.
Lemma le53p a b : Z.abs a <= 2 ^ 16 -> Z.abs b <= 2 ^ 16 -> Z.abs (a * b) <= 2 ^ 53.
Proof. intros A B. eapply Z.le_trans; [apply abs_prod32; assumption|discriminate]. Qed.
Lemma mult32 M a b : (0 < M)%Q -> Z.abs a <= 2 ^ 16 -> Z.abs b <= 2 ^ 16 -> (Qabs (M * (inject_Z a * inject_Z b)) <= inject_Z (2 ^ 32) * M)%Q.
Proof.
  intros P A B. rewrite Qabs_Qmult, (Qabs_pos M) by lra. rewrite <- inject_Z_mult.
  change (Qabs (inject_Z (a * b))) with (inject_Z (Z.abs (a * b))). rewrite (Qmult_comm M). apply Qmult_le_compat_r; [|lra].
  apply (proj1 (Zle_inj _ _)). apply abs_prod32; assumption.
Qed.
Lemma mag61 m a b : (a <= inject_Z (2 ^ 28))%Q -> (b <= inject_Z (2 ^ 28))%Q -> (m <= inject_Z (2 ^ 32) * a + inject_Z (2 ^ 32) * b)%Q -> (m <= inject_Z (2 ^ 61))%Q.
Proof.
  intros A B H. eapply Qle_trans; [exact H|]. apply Qle_trans with (inject_Z (2 ^ 32) * inject_Z (2 ^ 28) + inject_Z (2 ^ 32) * inject_Z (2 ^ 28))%Q; [|discriminate].
  apply Qplus_le_compat; (apply Qmult_le_l; [reflexivity|assumption]).
Qed.
Lemma mag61' m a : (a <= inject_Z (2 ^ 28))%Q -> (m <= inject_Z (2 ^ 16) + inject_Z (2 ^ 32) * a)%Q -> (m <= inject_Z (2 ^ 61))%Q.
Proof.
  intros A H. eapply Qle_trans; [exact H|]. apply Qle_trans with (inject_Z (2 ^ 16) + inject_Z (2 ^ 32) * inject_Z (2 ^ 28))%Q; [|discriminate].
  apply Qplus_le_compat; [apply Qle_refl|]. apply Qmult_le_l; [reflexivity|assumption].
Qed.

Section Run.
  Variables (fn : lfns) (q : lqs) (l : klstm) (b : list Q) (e : lstm_export) (rho sigma : Q).
  Hypothesis Sh : keras_lstm l b.
  Hypothesis GD : short_types q.
  Hypothesis R0 : (0 <= rho)%Q.
  Hypothesis FI : lstm_file rho fn q l b e.
  Hypothesis NO : lstm_numbers_ok l e sigma.
  Notation n := (kl_units l).
  Notation nf := (length (kl_K l)).
  Notation input := (x_in e).
  Notation hf := ((1#2) + rho)%Q.
  Local Definition gnode (g : nat) : gate_nodes := mkgn (x_kernel e g) (x_rec e g) (x_bias e g) (x_pre e g) (x_gate_in e g) (x_gate e g).

  Record gate_built_f (g : nat) (G : fgate) : Prop := {
    hb_ok : build_gate_f input (le_out e) (gnode g) = Ok G;
    hb_klen : length (fg_kernel G) = nf; hb_krow : forall r, In r (fg_kernel G) -> length r = n;
    hb_k : forall k j, (k < nf)%nat -> (j < n)%nat -> nth j (nth k (fg_kernel G) []) 0 = code (x_kernel e g) k j - zp0 (x_kernel e g);
    hb_ulen : length (fg_rec G) = n;
    hb_u : forall k j, (k < n)%nat -> (j < n)%nat -> nth j (nth k (fg_rec G) []) 0 = code (x_rec e g) k j - zp0 (x_rec e g);
    hb_b : forall j, (j < n)%nat -> nth j (fg_bias G) 0 = code (x_bias e g) 0 j }.
  Lemma div4 a b0 c d : fair a -> fair b0 -> fair c -> fair d -> exists r, py_div_f (fmul (Fin a) (Fin b0)) (fmul (Fin c) (Fin d)) = Ok r.
  Proof.
    intros A B C D. pose proof (fair_range _ A) as RA. pose proof (fair_range _ B) as RB. pose proof (fair_range _ C) as RC. pose proof (fair_range _ D) as RD.
    destruct (near_div _ _ _ _ 400 400 (near_scales a b0 200 200 (proj1 A) (proj1 B) RA RB ltac:(lia)) (near_scales c d 200 200 (proj1 C) (proj1 D) RC RD ltac:(lia))
      (posrange_mul 200 200 _ _ RA RB) (posrange_mul 200 200 _ _ RC RD) ltac:(lia)) as (v & V1 & V2). eauto.
  Qed.
  Lemma div2 a b0 c : fair a -> fair b0 -> fair c -> exists r, py_div_f (fmul (Fin a) (Fin b0)) (Fin c) = Ok r.
  Proof.
    intros A B C. pose proof (fair_range _ A) as RA. pose proof (fair_range _ B) as RB. pose proof (fair_range _ C) as RC.
    destruct (near_div _ _ _ _ 400 200 (near_scales a b0 200 200 (proj1 A) (proj1 B) RA RB ltac:(lia)) (scale_u c (proj1 C)) (posrange_mul 200 200 _ _ RA RB) RC ltac:(lia)) as (v & V1 & V2).
    eauto.
  Qed.
  Lemma near_rep a x ee : near a x ee -> (0 < x)%Q -> (ee <= 1#2)%Q -> exists y, a = Fin y /\ rep64 y /\ (0 < y)%Q /\ (y <= x + x)%Q.
  Proof.
    intros (y & Y & R & H) P HE. exists y. split; [exact Y|]. split; [exact R|]. rewrite (Qabs_pos x) in H by lra. apply Qabs_Qle_condition in H as [H1 H2].
    assert (T : (ee * x <= (1#2) * x)%Q) by (apply Qmult_le_compat_r; lra). split; lra.
  Qed.
  Lemma gate_builds_f g : (g < 4)%nat -> exists G, gate_built_f g G.
  Proof.
    intros Hg. destruct (centred_within _ _ _ _ _ _ (sy_k _ GD) (fi_kernel _ _ _ _ _ _ FI g Hg)) as (K & EK & K1 & K2 & K3).
    destruct (centred_within _ _ _ _ _ _ (sy_u _ GD) (fi_rec _ _ _ _ _ _ FI g Hg)) as (U & EU & U1 & U2 & U3).
    destruct (fi_bias _ _ _ _ _ _ FI g Hg) as (BZ & (BD1 & BD2) & BC).
    assert (CB : centred (x_bias e g) = Ok (map (map (fun v => i64 (v - 0))) (n_tensor (x_bias e g)))) by (unfold centred; rewrite BZ; reflexivity).
    destruct (div4 _ _ _ _ (no_kernel _ _ _ NO g Hg) (no_in _ _ _ NO) (no_out _ _ _ NO) (no_rec _ _ _ NO g Hg)) as (m1 & M1).
    destruct (div2 _ _ _ (no_rec _ _ _ NO g Hg) (no_out _ _ _ NO) (no_pre _ _ _ NO g Hg)) as (m2 & M2).
    eexists. constructor.
    - unfold build_gate_f, gnode. cbn [gn_kernel gn_rec gn_bias gn_radd]. rewrite EK, EU, CB. cbn [rbind]. unfold n_scale_f. rewrite M1, M2. cbn [rbind]. reflexivity.
    - exact K1.
    - exact K2.
    - exact K3.
    - exact U1.
    - exact U3.
    - cbn [fg_bias]. intros j Hj.
      assert (LB : length (nth 0 (n_tensor (x_bias e g)) []) = n) by (apply BD2, nth_In; lia).
      assert (E : hd [] (map (map (fun v => i64 (v - 0))) (n_tensor (x_bias e g))) = map (fun v => i64 (v - 0)) (nth 0 (n_tensor (x_bias e g)) [])).
      { destruct (n_tensor (x_bias e g)); reflexivity. }
      rewrite E. rewrite (nth_map_in _ _ j 0) by lia. fold (code (x_bias e g) 0 j). rewrite Z.sub_0_r.
      destruct (BC j Hj) as [W _]. apply i64_id. lia.
  Qed.
  Lemma from_model_eq_f sq : lstm_from_model_f (le_ins e) (le_out e) sq =
    lstm_build_f input (le_out e) (x_cell e) (x_act_in e) (x_act e) (gnode 0) (gnode 1) (gnode 2) (gnode 3) sq.
  Proof. unfold lstm_from_model_f. rewrite (fi_len _ _ _ _ _ _ FI). reflexivity. Qed.

  (** the engine's record, gate by gate *)
  Record engine_built_f (sq : bool) (eng : flstm) (G : nat -> fgate) : Prop := {
    ec_build : lstm_build_f input (le_out e) (x_cell e) (x_act_in e) (x_act e) (gnode 0) (gnode 1) (gnode 2) (gnode 3) sq = Ok eng;
    ec_gates : forall g, (g < 4)%nat -> gate_built_f g (G g);
    ec_in : fl_in eng = G 0%nat; ec_forget : fl_forget eng = G 1%nat; ec_cellg : fl_cell eng = G 2%nat; ec_out : fl_out eng = G 3%nat;
    ec_lin : lut_from_node (n_lut (x_gate_in e 0)) = Ok (fl_in_lut eng);
    ec_lforget : lut_from_node (n_lut (x_gate_in e 1)) = Ok (fl_forget_lut eng);
    ec_lcell : lut_from_node (n_lut (x_gate_in e 2)) = Ok (fl_cell_lut eng);
    ec_lout : lut_from_node (n_lut (x_gate_in e 3)) = Ok (fl_out_lut eng);
    ec_lstate : lut_from_node (n_lut (x_act_in e)) = Ok (fl_state_lut eng);
    ec_izp : fl_input_zp eng = zp0 input;
    ec_rdt : fl_rec_dtype eng = q_rec_add q; ec_sdt : fl_state_dtype eng = q_cell q; ec_hdt : fl_hidden_dtype eng = q_hidden q;
    ec_cells : fl_cells eng = n; ec_seq : fl_seq eng = sq }.
  Lemma engine_builds_f sq : exists eng G, engine_built_f sq eng G.
  Proof.
    assert (L0 : (0 < 4)%nat) by lia. assert (L1 : (1 < 4)%nat) by lia. assert (L2 : (2 < 4)%nat) by lia. assert (L3 : (3 < 4)%nat) by lia.
    destruct (gate_builds_f 0 L0) as (G0 & B0), (gate_builds_f 1 L1) as (G1 & B1), (gate_builds_f 2 L2) as (G2 & B2), (gate_builds_f 3 L3) as (G3 & B3).
    pose proof (no_gate _ _ _ NO) as FG. pose proof (no_cell _ _ _ NO) as FC. pose proof (no_act _ _ _ NO) as FA. pose proof (no_out _ _ _ NO) as FH.
    assert (DP : forall x y z : Q, (0 < x)%Q -> (0 < y)%Q -> (0 < z)%Q -> (0 < x * y / z)%Q).
    { intros x y z X Y Z. apply Qlt_shift_div_l; [exact Z|]. rewrite Qmult_0_l. apply Qmult_lt_0_compat; assumption. }
    assert (S29 : (inject_Z (2 ^ 28) + inject_Z (2 ^ 28) == inject_Z (2 ^ 29))%Q) by reflexivity.
    destruct (div2 _ _ _ (FG 0%nat L0) (FG 2%nat L2) FC) as (m4 & M4). destruct (div2 _ _ _ (FG 3%nat L3) FA FH) as (m5 & M5).
    pose proof (no_M3 _ _ _ NO) as N3. pose proof (no_M4 _ _ _ NO) as N4. pose proof (no_M5 _ _ _ NO) as N5.
    destruct (near_rep _ _ _ (near_scale _ (proj1 (FG 1%nat L1))) (fair_pos _ (FG 1%nat L1)) ltac:(discriminate)) as (y3 & Y3 & YR3 & YP3 & YB3).
    destruct (near_rep _ _ _ (mult2 _ _ _ _ (FG 0%nat L0) (FG 2%nat L2) FC M4) (DP _ _ _ (fair_pos _ (FG 0%nat L0)) (fair_pos _ (FG 2%nat L2)) (fair_pos _ FC)) ltac:(discriminate)) as (y4 & Y4 & YR4 & YP4 & YB4).
    destruct (near_rep _ _ _ (mult2 _ _ _ _ (FG 3%nat L3) FA FH M5) (DP _ _ _ (fair_pos _ (FG 3%nat L3)) (fair_pos _ FA) (fair_pos _ FH)) ltac:(discriminate)) as (y5 & Y5 & YR5 & YP5 & YB5).
    destruct (fia_small_f y3 YR3 YP3 ltac:(lra)) as (f3 & F3). destruct (fia_small_f y4 YR4 YP4 ltac:(lra)) as (f4 & F4). destruct (fia_small_f y5 YR5 YP5 ltac:(lra)) as (f5 & F5).
    destruct (fi_table _ _ _ _ _ _ FI 0%nat L0) as (a0 & A0 & _), (fi_table _ _ _ _ _ _ FI 1%nat L1) as (a1 & A1 & _), (fi_table _ _ _ _ _ _ FI 2%nat L2) as (a2 & A2 & _),
      (fi_table _ _ _ _ _ _ FI 3%nat L3) as (a3 & A3 & _), (fi_act_table _ _ _ _ _ _ FI) as (a4 & A4 & _).
    eexists _, (fun g => match g with 0%nat => G0 | 1%nat => G1 | 2%nat => G2 | _ => G3 end).
    constructor.
    - unfold lstm_build_f. cbv zeta. rewrite (hb_ok _ _ B0), (hb_ok _ _ B1), (hb_ok _ _ B2), (hb_ok _ _ B3). cbn [rbind].
      unfold gnode at 1 2 3 4 5. cbn [gn_out]. unfold n_scale_f. rewrite M4, M5. cbn [rbind].
      unfold gnode at 1 2 3 4. cbn [gn_in]. rewrite A0, A1, A2, A3, A4. cbn [rbind].
      rewrite Y4, F4, Y5, F5.
      assert (E3 : fia_init_f (Fin (n_scale (x_gate e 1))) = Ok f3).
      { congruence. }
      cbn [gnode gn_out]. unfold gnode at 1. cbn [gn_out]. rewrite E3. cbn [rbind]. reflexivity.
    - apply lt4; assumption.
    - reflexivity.
    - reflexivity.
    - reflexivity.
    - reflexivity.
    - exact A0.
    - exact A1.
    - exact A2.
    - exact A3.
    - exact A4.
    - reflexivity.
    - cbn [fl_rec_dtype]. apply (ng_dtype _ _ (fi_pre _ _ _ _ _ _ FI 0%nat L0)).
    - cbn [fl_state_dtype]. apply (ng_dtype _ _ (fi_act _ _ _ _ _ _ FI)).
    - cbn [fl_hidden_dtype]. apply (ng_dtype _ _ (fi_hidden _ _ _ _ _ _ FI)).
    - cbn [fl_cells]. pose proof (hb_klen _ _ B0) as LK. pose proof (hb_krow _ _ B0) as RK. destruct (fg_kernel G0) as [|r0 rs].
      + cbn in LK. pose proof (kr_feat _ _ Sh) as NE. destruct (kl_K l); [congruence|discriminate].
      + apply RK. now left.
    - reflexivity.
  Qed.
  Variable qi : gdtype.
  Hypothesis IG : node_good input qi.
  Hypothesis IS : short qi.
  (** ** pre-activations *)
  Lemma pre_close g G xq x hq (h : nat -> Q) eh ex X bb r :
    (g < 4)%nat -> gate_built_f g G -> length xq = nf -> length x = nf -> (forall v, In v xq -> in_dtype qi v) ->
    (forall k, (k < nf)%nat -> (Qabs (val input (nth k xq 0%Z) - nth k x 0) <= ex)%Q) -> (0 <= ex)%Q -> (abssum x <= X)%Q ->
    length hq = n -> (forall v, In v hq -> Z.abs v <= 2 ^ 16) -> (0 <= eh)%Q ->
    (forall k, (k < n)%nat -> (Qabs (n_scale (le_out e) * inject_Z (nth k hq 0%Z) - h k) <= eh)%Q) -> (forall k, (k < n)%nat -> (Qabs (h k) <= 1)%Q) ->
    bias_add_row_f n G (map (fun v => i64 (v - zp0 input)) xq) = Ok bb -> recurrent_row_f n (q_rec_add q) G hq bb = Ok r ->
    forall j, (j < n)%nat -> fits_within rho (x_pre e g) (pre l b h x g j) ->
    (Qabs (val (x_pre e g) (nth j r 0%Z) - pre l b h x g j) <= d_pre l e X ex rho sigma g eh)%Q.
  Proof.
    intros Hg GB Lxq Lx Dx Ex Ex0 HX Lh Dh Eh0 Eh Bh Eb Er j Hj HH.
    destruct GB as [Gok Gkl Gkr Gk Gul Gu Gb].
    pose proof (fi_kernel _ _ _ _ _ _ FI g Hg) as WK. pose proof (fi_rec _ _ _ _ _ _ FI g Hg) as WU.
    pose proof (fi_pre _ _ _ _ _ _ FI g Hg) as PG. pose proof (fi_hidden _ _ _ _ _ _ FI) as HG. pose proof HH as PF.
    destruct WK as (WKg & WKd & WK). destruct WU as (WUg & WUd & WU).
    set (si := n_scale input) in *. set (sk := n_scale (x_kernel e g)) in *. set (su := n_scale (x_rec e g)) in *.
    set (sh := n_scale (le_out e)) in *. set (sr := n_scale (x_pre e g)) in *.
    assert (Psi : (0 < si)%Q) by apply (ng_pos _ _ IG). assert (Psk : (0 < sk)%Q) by apply (ng_pos _ _ WKg).
    assert (Psu : (0 < su)%Q) by apply (ng_pos _ _ WUg). assert (Psh : (0 < sh)%Q) by apply (ng_pos _ _ HG).
    assert (Psr : (0 < sr)%Q) by apply (ng_pos _ _ PG).
    destruct (ng_zp _ _ IG) as (zi & ZI1 & ZI2). assert (EZI : zp0 input = zi) by (unfold zp0; now rewrite ZI1).
    destruct (ng_zp _ _ WKg) as (zk & ZK1 & ZK2). assert (EZK : zp0 (x_kernel e g) = zk) by (unfold zp0; now rewrite ZK1).
    destruct (ng_zp _ _ WUg) as (zu & ZU1 & ZU2). assert (EZU : zp0 (x_rec e g) = zu) by (unfold zp0; now rewrite ZU1).
    destruct (ng_zp _ _ PG) as (zr & ZR1 & ZR2). assert (EZR : zp0 (x_pre e g) = zr) by (unfold zp0; now rewrite ZR1).
    pose proof (sy_k _ GD) as Sk. pose proof (sy_u _ GD) as Su. pose proof (sy_r _ GD) as Sr.
    assert (LU : length (kl_U l) = n) by apply (kr_Ul _ _ Sh).
    set (xc := map (fun v => i64 (v - zp0 input)) xq) in *.
    set (wk := map (fun k => code (x_kernel e g) k j) (seq 0 nf)). set (wu := map (fun k => code (x_rec e g) k j) (seq 0 n)).
    assert (Nwk : forall k, (k < nf)%nat -> nth k wk 0 = code (x_kernel e g) k j) by (intros k Hk; exact (nth_map0 (fun k => code (x_kernel e g) k j) nf k Hk)).
    assert (Nwu : forall k, (k < n)%nat -> nth k wu 0 = code (x_rec e g) k j) by (intros k Hk; exact (nth_map0 (fun k => code (x_rec e g) k j) n k Hk)).
    assert (Nxc : forall i, (i < nf)%nat -> nth i xc 0 = nth i xq 0 - zi).
    { intros i Hi. unfold xc. rewrite (nth_map_in _ _ i 0) by lia. rewrite EZI. apply i64_id.
      pose proof (short_diff qi _ _ IS (Dx (nth i xq 0) ltac:(apply nth_In; lia)) ZI2). lia. }
    assert (DK : dot_col j xc (fg_kernel G) = sumZ_upto (length xq) (fun i => (nth i xq 0 - zi) * (nth i wk 0 - zk))).
    { apply dot_col_exact.
      - unfold xc. apply map_length.
      - unfold wk. rewrite map_length, seq_length. lia.
      - lia.
      - intros i Hi. apply Nxc. lia.
      - intros i Hi. rewrite Gk, Nwk by lia. rewrite EZK. reflexivity. }
    assert (DU : dot_col j hq (fg_rec G) = sumZ_upto (length hq) (fun i => (nth i hq 0 - 0) * (nth i wu 0 - zu))).
    { apply dot_col_exact.
      - reflexivity.
      - unfold wu. rewrite map_length, seq_length. lia.
      - lia.
      - intros i Hi. lia.
      - intros i Hi. rewrite Gu, Nwu by lia. rewrite EZU. reflexivity. }
    assert (BK : Z.abs (dot_col j xc (fg_kernel G)) <= Z.of_nat nf * 2 ^ 32).
    { rewrite DK, <- Lxq. apply sum_abs_bound. intros i Hi. rewrite Z.abs_mul. change (2 ^ 32) with (2 ^ 16 * 2 ^ 16).
      apply Z.mul_le_mono_nonneg; try apply Z.abs_nonneg.
      - apply (short_diff qi); [exact IS|apply Dx, nth_In; lia|exact ZI2].
      - rewrite Nwk by lia. apply (short_diff (q_kernel q)); [exact Sk| |exact ZK2]. apply WK; lia. }
    assert (BU : Z.abs (dot_col j hq (fg_rec G)) <= Z.of_nat n * 2 ^ 32).
    { rewrite DU, <- Lh. apply sum_abs_bound. intros i Hi. rewrite Z.abs_mul, Z.sub_0_r. change (2 ^ 32) with (2 ^ 16 * 2 ^ 16).
      apply Z.mul_le_mono_nonneg; try apply Z.abs_nonneg.
      - apply Dh, nth_In. exact Hi.
      - rewrite Nwu by lia. apply (short_diff (q_rec q)); [exact Su| |exact ZU2]. apply WU; lia. }
    pose proof (no_units _ _ _ NO) as FN. pose proof (no_feat _ _ _ NO) as FF.
    destruct (fi_bias _ _ _ _ _ _ FI g Hg) as (_ & _ & FB). specialize (FB j Hj) as [FB BE]. rewrite <- Gb in FB, BE by exact Hj. fold si sk in BE.
    set (bq := nth j (fg_bias G) 0) in *.
    assert (P32 : 2 ^ 32 = 4294967296) by reflexivity. assert (P31 : 2 ^ 31 = 2147483648) by reflexivity.
    assert (P19 : 2 ^ 19 = 524288) by reflexivity. assert (P52 : 2 ^ 52 = 4503599627370496) by reflexivity. assert (P51 : 2 ^ 51 = 2251799813685248) by reflexivity.
    assert (P53 : 2 ^ 53 = 9007199254740992) by reflexivity. assert (P16 : 2 ^ 16 = 65536) by reflexivity.
    assert (BKA : Z.abs (dot_col j xc (fg_kernel G) + bq) <= (Z.of_nat nf + 1) * 2 ^ 32) by lia.
    pose proof (C87_preactivation input (le_out e) (gnode g) G n (q_rec_add q) xc hq bb r Gok) as C.
    cbv zeta in C. unfold gnode in C. cbn [gn_kernel gn_rec gn_radd] in C. fold si sk su sh sr in C.
    pose proof (short_bits _ _ Sr ZR2) as BZR.
    assert (XC : exact_codes (q_rec_add q)) by (unfold short in Sr; unfold exact_codes; lia).
    specialize (C (no_kernel _ _ _ NO g Hg) (no_in _ _ _ NO) (no_rec _ _ _ NO g Hg) (no_out _ _ _ NO) (no_pre _ _ _ NO g Hg) XC). rewrite EZR in C.
    specialize (C ltac:(lia) Eb Er j Hj). fold bq in C.
    specialize (C ltac:(lia) ltac:(lia) ltac:(lia)).
    set (K0 := dot_col j xc (fg_kernel G) + bq) in *. set (R1 := dot_col j hq (fg_rec G)) in *.
    assert (AB : (inject_Z (Z.abs K0) <= inject_Z ((Z.of_nat nf + 1) * 2 ^ 32))%Q) by (apply (proj1 (Zle_inj _ _)); exact BKA).
    assert (AR : (inject_Z (Z.abs R1) <= inject_Z (Z.of_nat n * 2 ^ 32))%Q) by (apply (proj1 (Zle_inj _ _)); exact BU).
    assert (MB : (sk * si / (sh * su) * inject_Z (Z.abs K0) <= inject_Z (2 ^ 51))%Q).
    { pose proof (no_M1 _ _ _ NO g Hg) as M. fold si sk su sh in M. set (M1 := (sk * si / (sh * su))%Q) in *.
      assert (PM : (0 < M1)%Q).
      { apply Qlt_shift_div_l; [nra|]. rewrite Qmult_0_l. nra. }
      apply Qle_trans with (M1 * inject_Z ((Z.of_nat nf + 1) * 2 ^ 32))%Q; [apply Qmult_le_l; assumption|].
      rewrite inject_Z_mult, Qmult_assoc. apply Qle_trans with (inject_Z (2 ^ 19) * inject_Z (2 ^ 32))%Q; [apply Qmult_le_compat_r; [exact M|discriminate]|discriminate]. }
    specialize (C MB).
    assert (SG : (u49 * (sk * si * inject_Z (Z.abs K0) / sr + su * sh * inject_Z (Z.abs R1) / sr + su * sh / sr + inject_Z (Z.abs zr)) <= sigma)%Q).
    { pose proof (no_pre_round _ _ _ NO g Hg) as N1. cbv zeta in N1. fold si sk su sh sr in N1.
      eapply Qle_trans; [|exact N1]. rewrite !(Qmult_comm u49). apply Qmult_le_compat_r; [|discriminate].
      assert (IR : (0 <= / sr)%Q) by (apply Qlt_le_weak, Qinv_lt_0_compat, Psr).
      assert (Y1 : (sk * si * inject_Z (Z.abs K0) / sr <= sk * si * inject_Z ((Z.of_nat nf + 1) * 2 ^ 32) / sr)%Q).
      { apply Qmult_le_compat_r; [|exact IR]. apply Qmult_le_l; [nra|exact AB]. }
      assert (Y2 : (su * sh * inject_Z (Z.abs R1) / sr <= su * sh * inject_Z (Z.of_nat n * 2 ^ 32) / sr)%Q).
      { apply Qmult_le_compat_r; [|exact IR]. apply Qmult_le_l; [nra|exact AR]. }
      assert (Y3 : (inject_Z (Z.abs zr) <= inject_Z (2 ^ 16))%Q) by (apply (proj1 (Zle_inj _ _)); lia).
      lra. }
    unfold K0, R1 in *. clear K0 R1.
    (* the exact accumulators against the float sums *)
    set (wkf := map (fun k => entry (kl_K l) n g k j) (seq 0 nf)). set (wuf := map (fun k => entry (kl_U l) n g k j) (seq 0 n)).
    assert (Nwkf : forall k, (k < nf)%nat -> nth k wkf 0%Q = entry (kl_K l) n g k j) by (intros k Hk; exact (nth_map_seq (fun k => entry (kl_K l) n g k j) nf k 0%Q Hk)).
    assert (Nwuf : forall k, (k < n)%nat -> nth k wuf 0%Q = entry (kl_U l) n g k j) by (intros k Hk; exact (nth_map_seq (fun k => entry (kl_U l) n g k j) n k 0%Q Hk)).
    set (hfl := map h (seq 0 n)).
    assert (Nhf : forall k, (k < n)%nat -> nth k hfl 0%Q = h k) by (intros k Hk; exact (nth_map_seq h n k 0%Q Hk)).
    assert (Lhf : length hfl = n) by (unfold hfl; now rewrite map_length, seq_length).
    set (bj := nth (g * n + j) b 0%Q).
    assert (H0 : (0 <= half rho)%Q) by (unfold half; lra).
    assert (HKs : (0 <= sk * half rho)%Q) by (apply Qmult_le_0_compat; [lra|exact H0]).
    assert (HUs : (0 <= su * half rho)%Q) by (apply Qmult_le_0_compat; [lra|exact H0]).
    pose proof (acc_close si zi sk zk xq wk bq x wkf bj ex (sk * (half rho)) (si * sk * (half rho)) Ex0 HKs ltac:(lia)) as AK.
    specialize (AK ltac:(intros i Hi; rewrite <- EZI; apply Ex; lia)).
    specialize (AK ltac:(intros i Hi; rewrite Nwk, Nwkf by lia; rewrite <- EZK; apply WK; lia) BE).
    pose proof (acc_close sh 0 su zu hq wu 0 hfl wuf 0 eh (su * (half rho)) 0 Eh0 HUs ltac:(lia)) as AU.
    specialize (AU ltac:(intros i Hi; rewrite Z.sub_0_r, Nhf by lia; apply Eh; lia)).
    specialize (AU ltac:(intros i Hi; rewrite Nwu, Nwuf by lia; rewrite <- EZU; apply WU; lia)).
    specialize (AU ltac:(setoid_replace (sh * su * inject_Z 0 - 0)%Q with 0%Q by ring; discriminate)).
    unfold exact_acc in AK, AU. rewrite <- DK in AK. rewrite <- DU, Z.add_0_r in AU.
    set (kacc := dot_col j xc (fg_kernel G) + bq) in *. set (racc := dot_col j hq (fg_rec G)) in *.
    assert (SK : (sumQ_upto (length x) (fun i => ex * Qabs (nth i wkf 0) + sk * (half rho) * Qabs (nth i x 0) + ex * (sk * (half rho))) <=
                  ex * colsum (kl_K l) n g + sk * (half rho) * X + nq nf * (ex * (sk * (half rho))))%Q).
    { rewrite Lx. apply lin_bound; [exact Ex0|exact HKs| |].
      - rewrite (sumQ_upto_ext nf _ (fun k => Qabs (entry (kl_K l) n g k j))) by (intros k Hk; now rewrite Nwkf). apply colsum_ge, Hj.
      - rewrite <- (abssum_upto x nf Lx). exact HX. }
    assert (SU : (sumQ_upto (length hfl) (fun i => eh * Qabs (nth i wuf 0) + su * (half rho) * Qabs (nth i hfl 0) + eh * (su * (half rho))) <=
                  eh * colsum (kl_U l) n g + su * (half rho) * nq n + nq n * (eh * (su * (half rho))))%Q).
    { rewrite Lhf. apply lin_bound; [exact Eh0|exact HUs| |].
      - rewrite (sumQ_upto_ext n _ (fun k => Qabs (entry (kl_U l) n g k j))) by (intros k Hk; now rewrite Nwuf).
        pose proof (colsum_ge (kl_U l) n g j Hj) as CG. rewrite LU in CG. exact CG.
      - eapply Qle_trans; [apply (sumQ_upto_le n _ (fun _ => 1%Q)); intros k Hk; cbv beta; rewrite Nhf by exact Hk; apply Bh, Hk|].
        rewrite sumQ_upto_const. unfold nq. lra. }
    assert (PE : (pre l b h x g j == dense x wkf bj + dense hfl wuf 0)%Q).
    { unfold pre, dense. rewrite Lx, Lhf. fold bj.
      rewrite (sumQ_upto_ext n (fun i => nth i hfl 0 * nth i wuf 0)%Q (fun k => h k * entry (kl_U l) n g k j)%Q) by (intros k Hk; now rewrite Nhf, Nwuf).
      rewrite (sumQ_upto_ext nf (fun i => nth i x 0 * nth i wkf 0)%Q (fun k => nth k x 0 * entry (kl_K l) n g k j)%Q) by (intros k Hk; now rewrite Nwkf).
      ring. }
    set (p := pre l b h x g j) in *.
    (* assemble *)
    unfold fits_within in PF. cbv zeta in PF. rewrite (ng_dtype _ _ PG) in PF. fold sr in PF. rewrite EZR in PF.
    set (rp := real_pre sk si su sh sr zr kacc racc) in *.
    assert (RP : (Qabs (rp - real_code p sr zr) <= (Qabs (si * sk * inject_Z kacc - dense x wkf bj) + Qabs (sh * su * inject_Z racc - dense hfl wuf 0)) / sr)%Q).
    { unfold rp, real_pre, real_code.
      setoid_replace ((sk * si * inject_Z kacc + su * sh * inject_Z racc) / sr + inject_Z zr - (p / sr + inject_Z zr))%Q
        with (((si * sk * inject_Z kacc - dense x wkf bj) + (sh * su * inject_Z racc - dense hfl wuf 0)) * / sr)%Q
        by (rewrite PE; field; lra).
      rewrite Qabs_Qmult. rewrite (Qabs_pos (/ sr)) by (apply Qlt_le_weak, Qinv_lt_0_compat, Psr).
      apply Qmult_le_compat_r; [apply Qabs_triangle|apply Qlt_le_weak, Qinv_lt_0_compat, Psr]. }
    pose proof (clampQ_near (gmin (q_rec_add q)) (gmax (q_rec_add q)) rp (real_code p sr zr) (half rho) ltac:(unfold short in Sr; lia) H0 PF) as CN.
    unfold val. fold sr. rewrite EZR. apply scale_dist; [exact Psr|].
    set (A := Qabs (si * sk * inject_Z kacc - dense x wkf bj)) in *. set (B := Qabs (sh * su * inject_Z racc - dense hfl wuf 0)) in *.
    assert (BD : ((A + B) / sr <= (ex * colsum (kl_K l) n g + sk * (half rho) * X + nq nf * (ex * (sk * (half rho))) + si * sk * (half rho)
       + (eh * colsum (kl_U l) n g + su * (half rho) * nq n + nq n * (eh * (su * (half rho))))) / sr)%Q).
    { apply Qmult_le_compat_r; [lra|apply Qlt_le_weak, Qinv_lt_0_compat, Psr]. }
    assert (EB' : (d_pre l e X ex rho sigma g eh / sr == (ex * colsum (kl_K l) n g + sk * (half rho) * X + nq nf * (ex * (sk * (half rho))) + si * sk * (half rho)
       + (eh * colsum (kl_U l) n g + su * (half rho) * nq n + nq n * (eh * (su * (half rho))))) / sr + su * sh / sr + (1 + half rho + sigma))%Q).
    { unfold d_pre. cbv zeta. fold si sk su sh sr. field. lra. }
    rewrite EB'.
    set (big := ((ex * colsum (kl_K l) n g + sk * (half rho) * X + nq nf * (ex * (sk * (half rho))) + si * sk * (half rho)
       + (eh * colsum (kl_U l) n g + su * (half rho) * nq n + nq n * (eh * (su * (half rho))))) / sr)%Q) in *.
    set (cl := clampQ (gmin (q_rec_add q)) (gmax (q_rec_add q)) rp) in *.
    setoid_replace (inject_Z (nth j r 0%Z) - real_code p sr zr)%Q with ((inject_Z (nth j r 0%Z) - cl) + (cl - real_code p sr zr))%Q by ring.
    eapply Qle_trans; [apply Qabs_triangle|]. lra.
  Qed.

  (** ** one step *)
  Variables (Ls Ds Lt Dt X ex : Q).
  Hypothesis LipS : bounded_lip (fn_sig fn) Ls Ds.
  Hypothesis LipT : bounded_lip (fn_tanh fn) Lt Dt.
  Hypothesis Ex0 : (0 <= ex)%Q.
  Notation bgate := (d_gate l e Ls Ds Lt Dt X ex rho sigma).
  Notation bcell := (d_cell l (q_cell q) e Ls Ds Lt Dt X ex rho sigma).
  Notation bhidden := (d_hidden l (q_cell q) e Ls Ds Lt Dt X ex rho sigma).
  Lemma gate_lip g : bounded_lip (gate_fn fn g) (if (g =? 2)%nat then Lt else Ls) (if (g =? 2)%nat then Dt else Ds).
  Proof. unfold gate_fn. destruct (g =? 2)%nat; assumption. Qed.
  Definition xrow_ok (xq : list Z) (x : list Q) : Prop :=
    length xq = nf /\ length x = nf /\ (forall v, In v xq -> in_dtype qi v) /\
    (forall k, (k < nf)%nat -> (Qabs (val input (nth k xq 0%Z) - nth k x 0) <= ex)%Q) /\ (abssum x <= X)%Q.
  Definition hrow_ok (hq : list Z) (h : nat -> Q) (eh : Q) : Prop :=
    length hq = n /\ (forall v, In v hq -> Z.abs v <= 2 ^ 16) /\ (0 <= eh)%Q /\
    (forall k, (k < n)%nat -> (Qabs (n_scale (le_out e) * inject_Z (nth k hq 0%Z) - h k) <= eh)%Q) /\ (forall k, (k < n)%nat -> (Qabs (h k) <= 1)%Q).
  Definition crow_ok (cq : list Z) (c : nat -> Q) (ec : Q) : Prop :=
    length cq = n /\ (forall v, In v cq -> in_dtype (q_cell q) v) /\ (0 <= ec)%Q /\
    (forall k, (k < n)%nat -> (Qabs (val (x_cell e) (nth k cq 0%Z) - c k) <= ec)%Q) /\
    (forall k, (k < n)%nat -> (Qabs (c k) <= n_scale (x_cell e) * (inject_Z (gmax (q_cell q)) + rho))%Q).
  Lemma gate_close g G xq x hq h eh bb r a lt : (g < 4)%nat -> gate_built_f g G -> fin_gate G -> lut_from_node (n_lut (x_gate_in e g)) = Ok lt -> xrow_ok xq x -> hrow_ok hq h eh ->
    bias_add_row_f n G (map (fun v => i64 (v - zp0 input)) xq) = Ok bb -> recurrent_row_f n (q_rec_add q) G hq bb = Ok r ->
    lut_row lt r = Ok a ->
    (forall j, (j < n)%nat -> fits_within rho (x_pre e g) (pre l b h x g j)) ->
    (forall j, (j < n)%nat -> fits_within rho (x_gate e g) (gate_fn fn g (pre l b h x g j))) ->
    forall j, (j < n)%nat -> in_dtype (q_rec_add q) (nth j a 0) /\
      (Qabs (val (x_gate e g) (nth j a 0%Z) - gate_fn fn g (pre l b h x g j)) <= bgate g eh)%Q.
  Proof.
    intros Hg GB FG LT (X1 & X2 & X3 & X4 & X5) (H1 & H2 & H3 & H4 & H5) Eb Er Ea HP HA j Hj.
    pose proof (sy_r _ GD) as Sr.
    assert (I64 : int64_dtype (q_rec_add q)).
    { unfold short in Sr. unfold int64_dtype. assert (2 ^ 16 = 65536) by reflexivity. assert (2 ^ 63 = 9223372036854775808) by reflexivity. lia. }
    destruct (recurrent_row_in_F _ _ _ _ _ _ I64 FG Er) as [Ir Lr].
    pose proof (fi_gate _ _ _ _ _ _ FI g Hg) as GG.
    destruct (row_entries _ _ _ _ _ _ _ _ _ (fi_table _ _ _ _ _ _ FI g Hg) LT Ir Ea) as [La RE].
    specialize (RE j ltac:(lia)).
    pose proof (pre_close g G xq x hq h eh ex X bb r Hg GB X1 X2 X3 X4 Ex0 X5 H1 H2 H3 H4 H5 Eb Er j Hj (HP j Hj)) as PC.
    pose proof (entry_close rho (q_rec_add q) (gate_fn fn g) (x_pre e g) (x_gate e g) (nth j r 0) (nth j a 0) _ _ _ _ R0 ltac:(unfold short in Sr; lia) GG RE (HA j Hj) (gate_lip g) PC) as [A B].
    split; [exact A|]. unfold d_gate. destruct (g =? 2)%nat; exact B.
  Qed.
  Lemma fn_bounded g p : (Qabs (gate_fn fn g p) <= 1)%Q.
  Proof. destruct (gate_lip g) as (_ & _ & B & _). apply B. Qed.

  Lemma step_close sq eng G hq cq s eh ec xq x rec : engine_built_f sq eng G -> fin_lstm eng -> xrow_ok xq x -> hrow_ok hq (st_h s) eh -> crow_ok cq (st_c s) ec ->
    step_row_f eng hq cq (map (fun v => i64 (v - zp0 input)) xq) = Ok rec ->
    let s' := lnext fn l b s x in
    (forall g j, (g < 4)%nat -> (j < n)%nat -> fits_within rho (x_pre e g) (pre l b (st_h s) x g j)) ->
    (forall g j, (g < 4)%nat -> (j < n)%nat -> fits_within rho (x_gate e g) (gate_fn fn g (pre l b (st_h s) x g j))) ->
    (forall j, (j < n)%nat -> (Qabs (st_c s' j) <= n_scale (x_cell e) * (inject_Z (gmax (q_cell q)) + rho))%Q) ->
    (forall j, (j < n)%nat -> fits_within rho (x_act e) (fn_tanh fn (st_c s' j))) ->
    (forall j, (j < n)%nat -> fits_within rho (le_out e) (st_h s' j)) ->
    crow_ok (s_cell rec) (st_c s') (bcell eh ec) /\ length (s_hidden rec) = n /\ (forall v, In v (s_hidden rec) -> in_dtype (q_hidden q) v) /\
    (forall j, (j < n)%nat -> (Qabs (val (le_out e) (nth j (s_hidden rec) 0%Z) - st_h s' j) <= bhidden eh ec)%Q) /\
    (forall j, (j < n)%nat -> (Qabs (st_h s' j) <= 1)%Q).
  Proof.
    intros EB (FN0 & FN1 & FN2 & FN3) XR HR CR ST s' HP HA HC HT HH.
    destruct EB as [Bld BG Bi Bf Bc Bo Li Lf Lc Lo Lst Izp Rdt Sdt Hdt Cls Sq].
    pose proof (kr_units _ _ Sh) as Hn. rewrite Bi in FN0. rewrite Bf in FN1. rewrite Bc in FN2. rewrite Bo in FN3.
    unfold step_row_f in ST. cbv zeta in ST. rewrite Cls, Rdt, Bi, Bf, Bc, Bo in ST.
    set (xc := map (fun v => i64 (v - zp0 input)) xq) in *.
    destruct (bias_add_row_f n (G 0%nat) xc) as [bi|] eqn:B0; [|discriminate]. cbn [rbind] in ST.
    destruct (bias_add_row_f n (G 1%nat) xc) as [bf|] eqn:B1; [|discriminate]. cbn [rbind] in ST.
    destruct (bias_add_row_f n (G 2%nat) xc) as [bc|] eqn:B2; [|discriminate]. cbn [rbind] in ST.
    destruct (bias_add_row_f n (G 3%nat) xc) as [bo|] eqn:B3; [|discriminate]. cbn [rbind] in ST.
    destruct (recurrent_row_f n (q_rec_add q) (G 0%nat) hq bi) as [ri|] eqn:Q0; [|discriminate]. cbn [rbind] in ST.
    destruct (recurrent_row_f n (q_rec_add q) (G 1%nat) hq bf) as [rf|] eqn:Q1; [|discriminate]. cbn [rbind] in ST.
    destruct (recurrent_row_f n (q_rec_add q) (G 2%nat) hq bc) as [rc|] eqn:Q2; [|discriminate]. cbn [rbind] in ST.
    destruct (recurrent_row_f n (q_rec_add q) (G 3%nat) hq bo) as [ro|] eqn:Q3; [|discriminate]. cbn [rbind] in ST.
    match type of ST with rbind ?m _ = _ => destruct m as [ai|] eqn:A0; [|discriminate] end. cbn [rbind] in ST.
    match type of ST with rbind ?m _ = _ => destruct m as [af|] eqn:A1; [|discriminate] end. cbn [rbind] in ST.
    match type of ST with rbind ?m _ = _ => destruct m as [ac|] eqn:A2; [|discriminate] end. cbn [rbind] in ST.
    match type of ST with rbind ?m _ = _ => destruct m as [ao|] eqn:A3; [|discriminate] end. cbn [rbind] in ST.
    set (c' := map (fun j => cell1_f eng (nth j af 0) (nth j cq 0) (nth j ai 0) (nth j ac 0)) (seq 0 n)) in *.
    match type of ST with rbind ?m _ = _ => destruct m as [aa|] eqn:A4; [|discriminate] end. cbn [rbind] in ST.
    match type of ST with Ok ?t = _ => assert (E : rec = t) by congruence end. subst rec. clear ST. cbn [s_cell s_hidden].
    assert (L0 : (0 < 4)%nat) by lia. assert (L1 : (1 < 4)%nat) by lia. assert (L2 : (2 < 4)%nat) by lia. assert (L3 : (3 < 4)%nat) by lia.
    pose proof (gate_close 0 _ _ _ _ _ _ _ _ _ _ L0 (BG 0%nat L0) FN0 Li XR HR B0 Q0 A0 (fun j => HP 0%nat j L0) (fun j => HA 0%nat j L0)) as C0.
    pose proof (gate_close 1 _ _ _ _ _ _ _ _ _ _ L1 (BG 1%nat L1) FN1 Lf XR HR B1 Q1 A1 (fun j => HP 1%nat j L1) (fun j => HA 1%nat j L1)) as C1.
    pose proof (gate_close 2 _ _ _ _ _ _ _ _ _ _ L2 (BG 2%nat L2) FN2 Lc XR HR B2 Q2 A2 (fun j => HP 2%nat j L2) (fun j => HA 2%nat j L2)) as C2.
    pose proof (gate_close 3 _ _ _ _ _ _ _ _ _ _ L3 (BG 3%nat L3) FN3 Lo XR HR B3 Q3 A3 (fun j => HP 3%nat j L3) (fun j => HA 3%nat j L3)) as C3.
    assert (NN : forall u v : Q, (Qabs u <= v)%Q -> (0 <= v)%Q) by (intros u v Huv; eapply Qle_trans; [apply Qabs_nonneg|exact Huv]).
    pose proof (NN _ _ (proj2 (C0 0%nat Hn))) as N0. pose proof (NN _ _ (proj2 (C1 0%nat Hn))) as N1.
    pose proof (NN _ _ (proj2 (C2 0%nat Hn))) as N2. pose proof (NN _ _ (proj2 (C3 0%nat Hn))) as N3.
    pose proof (sy_r _ GD) as Sr. pose proof (sy_c _ GD) as Sc. pose proof (sy_h _ GD) as SH.
    destruct (fi_cell _ _ _ _ _ _ FI) as [CG CZ]. pose proof (ng_pos _ _ CG) as PC. set (sc := n_scale (x_cell e)) in *.
    assert (ZC : zp0 (x_cell e) = 0) by (unfold zp0; now rewrite CZ).
    pose proof (fi_gate _ _ _ _ _ _ FI) as GG.
    pose proof (fi_act _ _ _ _ _ _ FI) as AG. pose proof (fi_hidden _ _ _ _ _ _ FI) as HG.
    destruct CR as (CR1 & CR2 & CR3 & CR4 & CR5).
    set (gt := fun g j => gate_fn fn g (pre l b (st_h s) x g j)).
    set (vcb := (sc * (inject_Z (gmax (q_cell q)) + rho))%Q) in *.
    assert (VC0 : (0 <= vcb)%Q) by (apply (NN _ _ (CR5 0%nat Hn))).
    (* the new cell state *)
    assert (CELL : forall j, (j < n)%nat -> in_dtype (q_cell q) (nth j c' 0) /\ (Qabs (val (x_cell e) (nth j c' 0%Z) - st_c s' j) <= bcell eh ec)%Q).
    { intros j Hj. unfold c'. rewrite (nth_map0 (fun j => cell1_f eng (nth j af 0) (nth j cq 0) (nth j ai 0) (nth j ac 0)) n j Hj).
      split; [unfold cell1_f; rewrite Sdt; apply clipZ_range; unfold short in Sc; lia|].
      destruct (C0 j Hj) as [I0 E0], (C1 j Hj) as [I1 E1], (C2 j Hj) as [I2 E2].
      assert (Ic : in_dtype (q_cell q) (nth j cq 0)) by (apply CR2, nth_In; lia).
      assert (G1 : node_good (x_gate e 1) (q_rec_add q)) by (apply GG; lia).
      assert (G0 : node_good (x_gate e 0) (q_rec_add q)) by (apply GG; lia).
      assert (G2 : node_good (x_gate e 2) (q_rec_add q)) by (apply GG; lia).
      pose proof (code_abs _ _ _ Sr G1 I1) as D1. pose proof (code_abs _ _ _ Sc CG Ic) as D2. pose proof (code_abs _ _ _ Sr G0 I0) as D3. pose proof (code_abs _ _ _ Sr G2 I2) as D4.
      pose proof (C87_cell_state _ _ _ _ _ _ _ _ _ _ _ (nth j af 0) (nth j cq 0) (nth j ai 0) (nth j ac 0) Bld (no_cell _ _ _ NO) (no_gate _ _ _ NO 1%nat L1) (no_gate _ _ _ NO 0%nat L0) (no_gate _ _ _ NO 2%nat L2)) as CS.
      rewrite (ng_dtype _ _ AG) in CS. specialize (CS ltac:(unfold short in Sc; lia) ltac:(rewrite ZC; discriminate)).
      cbn [gnode gn_out] in CS.
      specialize (CS (le53 _ D1) (le53 _ D2) (le53p _ _ D3 D4)). cbv zeta in CS.
      fold (val (x_gate e 1) (nth j af 0)) (val (x_cell e) (nth j cq 0)) (val (x_gate e 0) (nth j ai 0)) (val (x_gate e 2) (nth j ac 0)) in CS.
      fold sc in CS. rewrite ZC in CS.
      set (vf := val (x_gate e 1) (nth j af 0)) in *. set (vc := val (x_cell e) (nth j cq 0)) in *. set (vi := val (x_gate e 0) (nth j ai 0)) in *. set (vg := val (x_gate e 2) (nth j ac 0)) in *.
      assert (S1 : (Qabs (vf * vc / sc) <= inject_Z (2 ^ 32) * n_scale (x_gate e 1))%Q).
      { setoid_replace (vf * vc / sc)%Q with (n_scale (x_gate e 1) * (inject_Z (nth j af 0%Z - zp0 (x_gate e 1)) * inject_Z (nth j cq 0%Z - zp0 (x_cell e))))%Q by (unfold vf, vc, val; fold sc; field; lra).
        apply mult32; [apply (ng_pos _ _ G1)|exact D1|exact D2]. }
      assert (S2 : (Qabs (vi * vg / sc) <= inject_Z (2 ^ 32) * (n_scale (x_gate e 0) * n_scale (x_gate e 2) / sc))%Q).
      { setoid_replace (vi * vg / sc)%Q with (n_scale (x_gate e 0) * n_scale (x_gate e 2) / sc * (inject_Z (nth j ai 0%Z - zp0 (x_gate e 0)) * inject_Z (nth j ac 0%Z - zp0 (x_gate e 2))))%Q by (unfold vi, vg, val; field; lra).
        apply mult32; [|exact D3|exact D4]. apply Qlt_shift_div_l; [exact PC|]. rewrite Qmult_0_l. apply Qmult_lt_0_compat; [apply (ng_pos _ _ G0)|apply (ng_pos _ _ G2)]. }
      set (mg := (Qabs (inject_Z 0) + Qabs (vf * vc / sc) + Qabs (vi * vg / sc))%Q) in *.
      pose proof (no_M3 _ _ _ NO) as NM3. pose proof (no_M4 _ _ _ NO) as NM4. pose proof (no_cell_round _ _ _ NO) as NCR. fold sc in NM4, NCR.
      assert (MG : (mg <= inject_Z (2 ^ 32) * n_scale (x_gate e 1) + inject_Z (2 ^ 32) * (n_scale (x_gate e 0) * n_scale (x_gate e 2) / sc))%Q).
      { unfold mg. change (Qabs (inject_Z 0)) with 0%Q. lra. }
      specialize (CS (mag61 _ _ _ NM3 NM4 MG)).
      assert (CSG : (u50 * mg <= sigma)%Q).
      { eapply Qle_trans; [|exact NCR]. rewrite !(Qmult_comm u50). apply Qmult_le_compat_r; [exact MG|discriminate]. }
      set (cd := (inject_Z 0 + vf * vc / sc + vi * vg / sc)%Q) in *.
      pose proof (prod_close (gt 1%nat j) (st_c s j) vf vc _ _ vcb N1 E1 (CR4 j Hj) (fn_bounded 1 _) (CR5 j Hj)) as P1.
      pose proof (prod_close (gt 0%nat j) (gt 2%nat j) vi vg _ _ 1 N0 E0 E2 (fn_bounded 0 _) (fn_bounded 2 _)) as P2.
      assert (RC : (Qabs (cd - real_code (st_c s' j) sc 0) <= (((1 + bgate 1%nat eh) * ec + vcb * bgate 1%nat eh) + ((1 + bgate 0%nat eh) * bgate 2%nat eh + 1 * bgate 0%nat eh)) / sc)%Q).
      { change (st_c s' j) with (gt 1%nat j * st_c s j + gt 0%nat j * gt 2%nat j)%Q. unfold cd, real_code.
        setoid_replace (inject_Z 0 + vf * vc / sc + vi * vg / sc - ((gt 1%nat j * st_c s j + gt 0%nat j * gt 2%nat j) / sc + inject_Z 0))%Q
          with (((vf * vc - gt 1%nat j * st_c s j) + (vi * vg - gt 0%nat j * gt 2%nat j)) * / sc)%Q by (field; lra).
        rewrite Qabs_Qmult, (Qabs_pos (/ sc)) by (apply Qlt_le_weak, Qinv_lt_0_compat, PC).
        apply Qmult_le_compat_r; [|apply Qlt_le_weak, Qinv_lt_0_compat, PC].
        eapply Qle_trans; [apply Qabs_triangle|]. apply Qplus_le_compat; assumption. }
      pose proof (HC j Hj) as FIT. fold sc in FIT. fold vcb in FIT. apply Qabs_Qle_condition in FIT as [FT1 FT2].
      assert (F1 : (- (inject_Z (gmax (q_cell q)) + rho) <= st_c s' j / sc)%Q).
      { apply Qle_shift_div_l; [exact PC|]. unfold vcb in FT1. lra. }
      assert (F2 : (st_c s' j / sc <= inject_Z (gmax (q_cell q)) + rho)%Q).
      { apply Qle_shift_div_r; [exact PC|]. unfold vcb in FT2. lra. }
      assert (MQ : (inject_Z (gmin (q_cell q)) <= - inject_Z (gmax (q_cell q)))%Q).
      { rewrite <- inject_Z_opp. apply (proj1 (Zle_inj _ _)). apply (sy_csym _ GD). }
      pose proof (clampQ_near (gmin (q_cell q)) (gmax (q_cell q)) cd (real_code (st_c s' j) sc 0) rho ltac:(unfold short in Sc; lia) R0
        ltac:(unfold real_code; change (inject_Z 0) with 0%Q; split; lra)) as CN.
      unfold val. fold sc. rewrite ZC. apply scale_dist; [exact PC|].
      set (v := cell1_f eng (nth j af 0) (nth j cq 0) (nth j ai 0) (nth j ac 0)) in *. set (cl := clampQ (gmin (q_cell q)) (gmax (q_cell q)) cd) in *.
      assert (EE : (bcell eh ec / sc == (((1 + bgate 1%nat eh) * ec + vcb * bgate 1%nat eh) + ((1 + bgate 0%nat eh) * bgate 2%nat eh + 1 * bgate 0%nat eh)) / sc + (1 + rho + sigma))%Q).
      { unfold d_cell. cbv zeta. fold sc. unfold vcb. field. lra. }
      rewrite EE. setoid_replace (inject_Z v - real_code (st_c s' j) sc 0)%Q with ((inject_Z v - cl) + (cl - real_code (st_c s' j) sc 0))%Q by ring.
      eapply Qle_trans; [apply Qabs_triangle|]. lra. }
    assert (Lc' : length c' = n) by (unfold c'; now rewrite map_length, seq_length).
    assert (Ic' : forall v, In v c' -> in_dtype (q_cell q) v).
    { intros v Hv. apply In_nth with (d := 0) in Hv as (j & Hj & <-). apply CELL. lia. }
    assert (BC0 : (0 <= bcell eh ec)%Q) by (apply (NN _ _ (proj2 (CELL 0%nat Hn)))).
    (* its activation *)
    destruct (row_entries _ _ _ _ _ _ _ _ _ (fi_act_table _ _ _ _ _ _ FI) Lst Ic' A4) as [Laa RA].
    set (ea := (Lt * bcell eh ec + Dt + n_scale (x_act e) * ((1#2) + rho))%Q).
    assert (ACT : forall j, (j < n)%nat -> in_dtype (q_cell q) (nth j aa 0) /\ (Qabs (val (x_act e) (nth j aa 0%Z) - fn_tanh fn (st_c s' j)) <= ea)%Q).
    { intros j Hj.
      apply (entry_close rho (q_cell q) (fn_tanh fn) (x_cell e) (x_act e) (nth j c' 0) (nth j aa 0) _ _ _ _ R0 ltac:(unfold short in Sc; lia) AG (RA j ltac:(lia)) (HT j Hj) LipT). apply CELL, Hj. }
    split; [|split; [now rewrite map_length, seq_length|split; [|split]]].
    - split; [exact Lc'|]. split; [exact Ic'|]. split; [exact BC0|]. split; [intros k Hk; apply CELL, Hk|].
      exact HC.
    - intros v Hv. apply in_map_iff in Hv as (j & <- & _). unfold hidden1_f. rewrite Hdt. apply clipZ_range. unfold short in SH. lia.
    - intros j Hj. rewrite (nth_map0 (fun j => hidden1_f eng (nth j ao 0) (nth j aa 0)) n j Hj).
      destruct (C3 j Hj) as [I3 E3]. destruct (ACT j Hj) as [Ia Ea].
      pose proof (ng_pos _ _ HG) as PH. set (sh := n_scale (le_out e)) in *.
      destruct (ng_zp _ _ HG) as (zh & ZH1 & ZH2). assert (EZH : zp0 (le_out e) = zh) by (unfold zp0; now rewrite ZH1).
      assert (G3 : node_good (x_gate e 3) (q_rec_add q)) by (apply GG; lia).
      pose proof (code_abs _ _ _ Sr G3 I3) as D1. pose proof (code_abs _ _ _ Sc AG Ia) as D2.
      pose proof (C87_hidden_state _ _ _ _ _ _ _ _ _ _ _ (nth j ao 0) (nth j aa 0) Bld (no_out _ _ _ NO) (no_gate _ _ _ NO 3%nat L3) (no_act _ _ _ NO)) as CS.
      rewrite (ng_dtype _ _ HG) in CS. pose proof (short_bits _ _ SH ZH2) as BZH. assert (P16 : 2 ^ 16 = 65536) by reflexivity.
      specialize (CS ltac:(unfold short in SH; lia) (le53 (zp0 (le_out e)) ltac:(rewrite EZH; lia))).
      cbn [gnode gn_out] in CS. specialize (CS (le53p _ _ D1 D2)). cbv zeta in CS.
      fold (val (x_gate e 3) (nth j ao 0)) (val (x_act e) (nth j aa 0)) sh in CS. rewrite EZH in CS.
      set (vo := val (x_gate e 3) (nth j ao 0)) in *. set (va := val (x_act e) (nth j aa 0)) in *.
      assert (S1 : (Qabs (vo * va / sh) <= inject_Z (2 ^ 32) * (n_scale (x_gate e 3) * n_scale (x_act e) / sh))%Q).
      { setoid_replace (vo * va / sh)%Q with (n_scale (x_gate e 3) * n_scale (x_act e) / sh * (inject_Z (nth j ao 0%Z - zp0 (x_gate e 3)) * inject_Z (nth j aa 0%Z - zp0 (x_act e))))%Q by (unfold vo, va, val; field; lra).
        apply mult32; [|exact D1|exact D2]. apply Qlt_shift_div_l; [exact PH|]. rewrite Qmult_0_l. apply Qmult_lt_0_compat; [apply (ng_pos _ _ G3)|apply (ng_pos _ _ AG)]. }
      assert (S2 : (Qabs (inject_Z zh) <= inject_Z (2 ^ 16))%Q).
      { change (Qabs (inject_Z zh)) with (inject_Z (Z.abs zh)). apply (proj1 (Zle_inj _ _)). lia. }
      set (mg := (Qabs (inject_Z zh) + Qabs (vo * va / sh))%Q) in *.
      pose proof (no_M5 _ _ _ NO) as NM5. pose proof (no_hidden_round _ _ _ NO) as NHR. fold sh in NM5, NHR.
      assert (MG : (mg <= inject_Z (2 ^ 16) + inject_Z (2 ^ 32) * (n_scale (x_gate e 3) * n_scale (x_act e) / sh))%Q) by (unfold mg; lra).
      specialize (CS (mag61' _ _ NM5 MG)).
      assert (CSG : (u50 * mg <= sigma)%Q).
      { eapply Qle_trans; [|exact NHR]. rewrite !(Qmult_comm u50). apply Qmult_le_compat_r; [exact MG|discriminate]. }
      set (cd := (inject_Z zh + vo * va / sh)%Q) in *.
      pose proof (prod_close (gt 3%nat j) (fn_tanh fn (st_c s' j)) vo va _ _ 1 N3 E3 Ea (fn_bounded 3 _) (fn_bounded 2 _)) as P1.
      assert (RC : (Qabs (cd - real_code (st_h s' j) sh zh) <= ((1 + bgate 3%nat eh) * ea + 1 * bgate 3%nat eh) / sh)%Q).
      { change (st_h s' j) with (gt 3%nat j * fn_tanh fn (st_c s' j))%Q. unfold cd, real_code.
        setoid_replace (inject_Z zh + vo * va / sh - (gt 3%nat j * fn_tanh fn (st_c s' j) / sh + inject_Z zh))%Q
          with ((vo * va - gt 3%nat j * fn_tanh fn (st_c s' j)) * / sh)%Q by (field; lra).
        rewrite Qabs_Qmult, (Qabs_pos (/ sh)) by (apply Qlt_le_weak, Qinv_lt_0_compat, PH).
        apply Qmult_le_compat_r; [exact P1|apply Qlt_le_weak, Qinv_lt_0_compat, PH]. }
      pose proof (HH j Hj) as FIT. unfold fits_within in FIT. cbv zeta in FIT. rewrite (ng_dtype _ _ HG) in FIT. fold sh in FIT. rewrite EZH in FIT.
      pose proof (clampQ_near (gmin (q_hidden q)) (gmax (q_hidden q)) cd (real_code (st_h s' j) sh zh) hf ltac:(unfold short in SH; lia) ltac:(lra) FIT) as CN.
      unfold val. fold sh. rewrite EZH. apply scale_dist; [exact PH|].
      set (v := hidden1_f eng (nth j ao 0) (nth j aa 0)) in *. set (cl := clampQ (gmin (q_hidden q)) (gmax (q_hidden q)) cd) in *.
      assert (EE : (bhidden eh ec / sh == ((1 + bgate 3%nat eh) * ea + 1 * bgate 3%nat eh) / sh + (1 + hf + sigma))%Q).
      { unfold d_hidden, half. cbv zeta. fold sh. unfold ea. field. lra. }
      rewrite EE. setoid_replace (inject_Z v - real_code (st_h s' j) sh zh)%Q with ((inject_Z v - cl) + (cl - real_code (st_h s' j) sh zh))%Q by ring.
      eapply Qle_trans; [apply Qabs_triangle|]. lra.
    - intros j Hj. change (st_h s' j) with (gt 3%nat j * fn_tanh fn (st_c s' j))%Q. rewrite Qabs_Qmult.
      apply Qle_trans with (1 * Qabs (fn_tanh fn (st_c s' j)))%Q; [apply Qmult_le_compat_r; [apply (fn_bounded 3)|apply Qabs_nonneg]|].
      rewrite Qmult_1_l. apply (fn_bounded 2).
  Qed.

  (** ** a whole sample *)
  Notation bstate := (d_state l (q_cell q) e Ls Ds Lt Dt X ex rho sigma).
  Notation bout := (d_out l (q_cell q) e Ls Ds Lt Dt X ex rho sigma).
  Lemma run_close sq eng G xs xqs recs : engine_built_f sq eng G -> fin_lstm eng -> length xqs = length xs ->
    (forall t, (t < length xs)%nat -> xrow_ok (nth t xqs []) (nth t xs [])) -> lstm_in_range rho fn q l b e xs ->
    row_run_f eng (repeat 0 n) (repeat 0 n) (map (map (fun v => i64 (v - zp0 input))) xqs) = Ok recs ->
    forall t, (t < length xs)%nat -> length (s_hidden (nth t recs dstep)) = n /\ (forall v, In v (s_hidden (nth t recs dstep)) -> in_dtype (q_hidden q) v) /\
      forall j, (j < n)%nat -> (Qabs (val (le_out e) (nth j (s_hidden (nth t recs dstep)) 0%Z) - hidden_at fn l b xs t j) <= bout t)%Q.
  Proof.
    intros EB FIN LX XR [CVp CVg CVc CVa CVh] RR.
    pose proof (row_run_nth_F _ _ _ _ _ RR) as ST. rewrite map_length, LX in ST.
    assert (MN : forall t, (t < length xs)%nat -> nth t (map (map (fun v => i64 (v - zp0 input))) xqs) [] = map (fun v => i64 (v - zp0 input)) (nth t xqs [])).
    { intros t Ht. apply (nth_map_in (map (fun v => i64 (v - zp0 input))) xqs t [] []). lia. }
    pose proof (sy_h _ GD) as SH. pose proof (fi_hidden _ _ _ _ _ _ FI) as HG.
    (* one step from the invariant *)
    assert (ONE : forall t, (t < length xs)%nat ->
      hrow_ok (prev_h (repeat 0 n) recs t) (st_h (state fn l b (firstn t xs))) (fst (bstate t)) ->
      crow_ok (prev_c (repeat 0 n) recs t) (st_c (state fn l b (firstn t xs))) (snd (bstate t)) ->
      crow_ok (s_cell (nth t recs dstep)) (st_c (state fn l b (firstn (S t) xs))) (bcell (fst (bstate t)) (snd (bstate t))) /\
      length (s_hidden (nth t recs dstep)) = n /\ (forall v, In v (s_hidden (nth t recs dstep)) -> in_dtype (q_hidden q) v) /\
      (forall j, (j < n)%nat -> (Qabs (val (le_out e) (nth j (s_hidden (nth t recs dstep)) 0%Z) - st_h (state fn l b (firstn (S t) xs)) j) <= bhidden (fst (bstate t)) (snd (bstate t)))%Q) /\
      (forall j, (j < n)%nat -> (Qabs (st_h (state fn l b (firstn (S t) xs)) j) <= 1)%Q)).
    { intros t Ht HR CR. specialize (ST t Ht). rewrite MN in ST by exact Ht. rewrite (state_snoc fn l b xs t Ht).
      apply (step_close sq eng G _ _ _ _ _ _ _ _ EB FIN (XR t Ht) HR CR ST).
      - intros g j Hg Hj. apply (CVp t g j Ht Hg Hj).
      - intros g j Hg Hj. apply (CVg t g j Ht Hg Hj).
      - intros j Hj. rewrite <- (state_snoc fn l b xs t Ht). apply (CVc t j Ht Hj).
      - intros j Hj. rewrite <- (state_snoc fn l b xs t Ht). apply (CVa t j Ht Hj).
      - intros j Hj. rewrite <- (state_snoc fn l b xs t Ht). apply (CVh t j Ht Hj). }
    assert (INV : forall t, (t < length xs)%nat ->
      hrow_ok (prev_h (repeat 0 n) recs t) (st_h (state fn l b (firstn t xs))) (fst (bstate t)) /\
      crow_ok (prev_c (repeat 0 n) recs t) (st_c (state fn l b (firstn t xs))) (snd (bstate t))).
    { induction t as [|t IH]; intros Ht.
      - cbn [prev_h prev_c d_state fst snd firstn]. unfold state. cbn [fold_left].
        destruct (fi_cell _ _ _ _ _ _ FI) as [CG CZ]. pose proof (ng_pos _ _ CG) as PC.
        assert (RZ : forall v, In v (repeat 0 n) -> v = 0) by (intros v Hv; now apply repeat_spec in Hv).
        split.
        + split; [apply repeat_length|]. split; [intros v Hv; rewrite (RZ v Hv); discriminate|]. split; [discriminate|]. split.
          * intros k Hk. rewrite nth_repeat. cbn [st_h]. change (inject_Z 0) with 0%Q. setoid_replace (n_scale (le_out e) * 0 - 0)%Q with 0%Q by ring. discriminate.
          * intros k Hk. cbn [st_h]. discriminate.
        + split; [apply repeat_length|]. split.
          { intros v Hv. rewrite (RZ v Hv). pose proof (sy_cpos _ GD). pose proof (sy_csym _ GD). unfold in_dtype. lia. }
          split; [discriminate|]. split.
          * intros k Hk. rewrite nth_repeat. cbn [st_c]. unfold val, zp0. rewrite CZ. change (inject_Z (0 - 0)) with 0%Q.
            setoid_replace (n_scale (x_cell e) * 0 - 0)%Q with 0%Q by ring. discriminate.
          * intros k Hk. cbn [st_c]. change (Qabs 0) with 0%Q. apply Qmult_le_0_compat; [lra|].
            assert (CP : (inject_Z 0 <= inject_Z (gmax (q_cell q)))%Q) by (apply (proj1 (Zle_inj _ _)); pose proof (sy_cpos _ GD); lia). change (inject_Z 0) with 0%Q in CP. lra.
      - destruct (IH ltac:(lia)) as [HR CR]. destruct (ONE t ltac:(lia) HR CR) as (C1 & H1 & H2 & H3 & H4).
        cbn [prev_h prev_c d_state]. destruct (bstate t) as [eh ec]. cbn [fst snd] in *. split; [|exact C1].
        pose proof (ng_pos _ _ HG) as PH.
        split; [exact H1|]. split.
        { intros v Hv. pose proof (short_bits _ _ SH (H2 v Hv)). lia. }
        assert (BD : forall k, (k < n)%nat -> (Qabs (n_scale (le_out e) * inject_Z (nth k (s_hidden (nth t recs dstep)) 0%Z) - st_h (state fn l b (firstn (S t) xs)) k) <= bhidden eh ec + zp_err e)%Q).
        { intros k Hk. specialize (H3 k Hk). unfold val in H3. rewrite inject_Z_minus in H3.
          set (v := inject_Z (nth k (s_hidden (nth t recs dstep)) 0%Z)) in *. set (h := st_h (state fn l b (firstn (S t) xs)) k) in *.
          setoid_replace (n_scale (le_out e) * v - h)%Q with ((n_scale (le_out e) * (v - inject_Z (zp0 (le_out e))) - h) + n_scale (le_out e) * inject_Z (zp0 (le_out e)))%Q by ring.
          eapply Qle_trans; [apply Qabs_triangle|]. apply Qplus_le_compat; [exact H3|].
          rewrite Qabs_Qmult, (Qabs_pos (n_scale (le_out e))) by lra. unfold zp_err. apply Qle_refl. }
        split; [eapply Qle_trans; [apply Qabs_nonneg|apply (BD 0%nat (kr_units _ _ Sh))]|]. split; [exact BD|exact H4]. }
    intros t Ht. destruct (INV t Ht) as [HR CR]. destruct (ONE t Ht HR CR) as (_ & H1 & H2 & H3 & _).
    split; [exact H1|]. split; [exact H2|]. intros j Hj. unfold d_out. specialize (H3 j Hj). destruct (bstate t) as [eh ec]. exact H3.
  Qed.
  (** the engine never raises *)
  Lemma engine_fin sq eng G : engine_built_f sq eng G -> fin_lstm eng.
  Proof.
    intros [Bld _ _ _ _ _ _ _ _ _ _ _ _ _ _ _ _]. refine (built_fin _ _ _ _ _ _ _ _ _ _ _ Bld _).
    assert (A : forall g, (g < 4)%nat -> fair_recurrent (le_out e) (gnode g)).
    { intros g Hg. destruct (fi_pre _ _ _ _ _ _ FI g Hg) as [_ _ (z & Z1 & Z2)].
      constructor; cbn [gnode gn_rec gn_radd]; [apply (no_rec _ _ _ NO g Hg)|apply (no_out _ _ _ NO)|apply (no_pre _ _ _ NO g Hg)|].
      unfold zp0. rewrite Z1. pose proof (short_bits _ _ (sy_r _ GD) Z2) as SB. assert (E1 : 2 ^ 16 = 65536) by reflexivity. assert (E2 : 2 ^ 63 = 9223372036854775808) by reflexivity. lia. }
    intros g [<-|[<-|[<-|[<-|[]]]]]; apply A; lia.
  Qed.
  (** the engine never raises *)
  Lemma run_total sq eng G T' samples : engine_built_f sq eng G -> (0 < T')%nat -> samples <> [] ->
    (forall s t, In s samples -> (t < T')%nat -> length (nth t s []) = nf) -> exists r, lstm_infer_f eng T' samples = Ok r.
  Proof.
    intros EB. pose proof (engine_fin _ _ _ EB) as FIN. revert EB.
    intros [Bld BG Bi Bf Bc Bo Li Lf Lc Lo Lst Izp Rdt Sdt Hdt Cls Sq] HT NE HS.
    pose proof (sy_r _ GD) as Sr. pose proof (sy_c _ GD) as Sc.
    pose proof (fi_table _ _ _ _ _ _ FI) as TB.
    assert (GO : forall g, (g < 4)%nat -> gate_ok_F n nf (G g)) by (intros g Hg; exact (conj (hb_klen _ _ (BG g Hg)) (hb_ulen _ _ (BG g Hg)))).
    assert (I64 : int64_dtype (q_rec_add q)).
    { unfold short in Sr. unfold int64_dtype. assert (2 ^ 16 = 65536) by reflexivity. assert (2 ^ 63 = 9223372036854775808) by reflexivity. lia. }
    assert (SC1 : gmin (q_cell q) <= gmax (q_cell q)) by (unfold short in Sc; lia).
    assert (L0 : (0 < 4)%nat) by lia. assert (L1 : (1 < 4)%nat) by lia. assert (L2 : (2 < 4)%nat) by lia. assert (L3 : (3 < 4)%nat) by lia.
    rewrite <- Cls in GO. rewrite <- Rdt in I64. rewrite <- Sdt in SC1.
    pose proof (table_covers _ _ _ _ _ _ _ (TB 0%nat L0) Li) as K0. pose proof (table_covers _ _ _ _ _ _ _ (TB 1%nat L1) Lf) as K1.
    pose proof (table_covers _ _ _ _ _ _ _ (TB 2%nat L2) Lc) as K2. pose proof (table_covers _ _ _ _ _ _ _ (TB 3%nat L3) Lo) as K3.
    pose proof (table_covers _ _ _ _ _ _ _ (fi_act_table _ _ _ _ _ _ FI) Lst) as CVC.
    rewrite <- Rdt in K0, K1, K2, K3. rewrite <- Sdt in CVC.
    assert (O0 := GO 0%nat L0). assert (O1 := GO 1%nat L1). assert (O2 := GO 2%nat L2). assert (O3 := GO 3%nat L3). clear GO.
    rewrite <- Bi in O0. rewrite <- Bf in O1. rewrite <- Bc in O2. rewrite <- Bo in O3.
    assert (UP : (0 < fl_cells eng)%nat) by (rewrite Cls; apply (kr_units _ _ Sh)).
    exact (C89_never_raises eng nf T' samples FIN I64 SC1 O0 O1 O2 O3 K0 K1 K2 K3 CVC UP HT NE HS).
  Qed.
End Run.
