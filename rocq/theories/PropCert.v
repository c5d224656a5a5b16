(** Property C79: an error certificate, computed from the file, for any file of a dense network. *)
From Verif Require Import Base BaseProofs DtypeModel DtypeProofs QuantModel QuantProofs LutModel LutProofs FcModel FcProofs FcLayer
  EngineModel EngineProofs DistModel DistProofs BuildModel PipeModel PropCore PropFc PropEngine PropDist PropNodeLut PropRelu PipeSpec PipeProofs
  PropPipe RPipeSpec RPipeProofs PropRPipe CertSpec.
From Verif Require NodeModel.
From Coq Require Import Lqa Qminmax.
Open Scope Z_scope.
Open Scope list_scope.

(** ** Lemmas *)
Lemma maxQ_in l v : In v l -> (v <= maxQ l)%Q.
Proof. apply fold_max_in. Qed.
Lemma maxQ_nonneg l : (0 <= maxQ l)%Q.
Proof. unfold maxQ. induction l as [|a l IH]; cbn [fold_right]; [apply Qle_refl|]. eapply Qle_trans; [exact IH|apply Q.le_max_r]. Qed.
Lemma maxQ_le l e : (0 <= e)%Q -> (forall v, In v l -> (v <= e)%Q) -> (maxQ l <= e)%Q.
Proof.
  intros E. unfold maxQ. induction l as [|a l IH]; cbn [fold_right]; intros H; [exact E|].
  apply Q.max_lub; [apply H; now left|apply IH; intros; apply H; now right].
Qed.
Lemma maxQ_seq (f : nat -> Q) n i : (i < n)%nat -> (f i <= maxQ (map f (seq 0 n)))%Q.
Proof. intros H. apply maxQ_in. apply in_map_iff. exists i. split; [reflexivity|]. apply in_seq. lia. Qed.
Lemma kernel_err_ge l k m j i : (j < kd_units l)%nat -> (i < length (kd_kernel l))%nat ->
  (Qabs (real_of k (nth i (nth j m []) 0%Z) - nth i (column j (kd_kernel l)) 0%Q) <= kernel_err l k m)%Q.
Proof.
  intros Hj Hi. unfold kernel_err. eapply Qle_trans; [|apply (maxQ_seq _ _ j Hj)]. cbv beta.
  apply (maxQ_seq (fun i => Qabs (real_of k (nth i (nth j m []) 0%Z) - nth i (column j (kd_kernel l)) 0%Q)) _ i Hi).
Qed.
Lemma kernel_err_le l k m e : (0 <= e)%Q ->
  (forall j i, (j < kd_units l)%nat -> (i < length (kd_kernel l))%nat ->
     (Qabs (real_of k (nth i (nth j m []) 0%Z) - nth i (column j (kd_kernel l)) 0%Q) <= e)%Q) -> (kernel_err l k m <= e)%Q.
Proof.
  intros E H. unfold kernel_err. apply maxQ_le; [exact E|]. intros v Hv. apply in_map_iff in Hv as (j & <- & Hj). apply in_seq in Hj.
  apply maxQ_le; [exact E|]. intros v Hv. apply in_map_iff in Hv as (i & <- & Hi). apply in_seq in Hi. apply H; lia.
Qed.
Lemma bias_err_ge l i k bv j : (j < kd_units l)%nat ->
  (Qabs (pn_scale i * pn_scale k * inject_Z (nth j bv 0%Z) - bias_at l j) <= bias_err l i k bv)%Q.
Proof. intros H. unfold bias_err. apply (maxQ_seq (fun j => Qabs (pn_scale i * pn_scale k * inject_Z (nth j bv 0%Z) - bias_at l j)) _ j H). Qed.
Lemma bias_err_le l i k bv e : (0 <= e)%Q ->
  (forall j, (j < kd_units l)%nat -> (Qabs (pn_scale i * pn_scale k * inject_Z (nth j bv 0%Z) - bias_at l j) <= e)%Q) -> (bias_err l i k bv <= e)%Q.
Proof.
  intros E H. unfold bias_err. apply maxQ_le; [exact E|]. intros v Hv. apply in_map_iff in Hv as (j & <- & Hj). apply in_seq in Hj. apply H. lia.
Qed.
Lemma codes_of_in q c : in_dtype q c -> In c (codes_of q).
Proof.
  intros [H1 H2]. unfold codes_of. apply in_map_iff. exists (Z.to_nat (c - gmin q)). split; [lia|]. apply in_seq. lia.
Qed.
Lemma table_err_ge f n o q c d : parse_dtype (pn_dtype n) = Ok q -> in_dtype q c -> table_at n c = Ok d ->
  (Qabs (real_of o d - f (real_of n c)) <= table_err f n o)%Q.
Proof.
  intros P I E. unfold table_err. rewrite P. apply maxQ_in. apply in_map_iff. exists c. rewrite E. split; [reflexivity|]. now apply codes_of_in.
Qed.

(** fc_row_raw for any kernel zero point *)
Lemma fc_row_zp si zx sk zk so zo d W bias l xq x ex :
  (0 < si)%Q -> (0 < sk)%Q -> (0 < so)%Q -> (0 <= ex)%Q ->
  fc_build si zx sk zk W bias so zo d = Ok l -> good_shapes W bias xq ->
  narrow d -> in_dtype d zo -> (1 # 1000000 <= si * sk / so)%Q -> length x = length xq ->
  (forall i, (i < length x)%nat -> (Qabs (si * inject_Z (nth i xq 0%Z - zx) - nth i x 0) <= ex)%Q) ->
  exists y, fc_infer l (T1 xq) = Ok (T1 y) /\ length y = length W /\ (forall v, In v y -> in_dtype d v) /\
  forall j (w : list Q) (b ew eb : Q), (j < length W)%nat -> (0 <= ew)%Q ->
    (forall i, (i < length x)%nat -> (Qabs (sk * inject_Z (nth i (nth j W []) 0%Z - zk) - nth i w 0) <= ew)%Q) ->
    (Qabs (si * sk * inject_Z (nth j bias 0%Z) - b) <= eb)%Q ->
    Z.abs (exact_acc zx zk xq (nth j W []) (nth j bias 0)) <= 2 ^ 31 ->
    exists v, nth j y 0 = clamp (gmin d) (gmax d) v /\
    (Qabs (so * inject_Z (v - zo) - dense x w b) <=
       sumQ_upto (length x) (fun i => ex * Qabs (nth i w 0) + ew * Qabs (nth i x 0) + ex * ew)
       + eb + so * (1#2) + si * sk)%Q.
Proof.
  intros Psi Psk Pso Pex Hb Hs N Hzo HM Lx Hx. pose proof N as (N1 & N2 & N3).
  assert (Hz : Z.abs zo <= 2 ^ 62) by (unfold within_int32, in_dtype in *; lia).
  destruct (C15_requantization si zx sk zk W bias so zo d l xq Hb Hs ltac:(lia) Hz HM) as (y & Y1 & Y2 & Y3).
  exists y. split; [exact Y1|]. split; [exact Y2|]. split.
  { pose proof (C16_range si zx sk zk W bias so zo d l (T1 xq) (T1 y) Hb ltac:(lia) Y1) as R. exact R. }
  intros j w b ew eb Hj Pew Hw Hbb Hacc.
  destruct (Y3 j Hj Hacc) as (v & Hv & Ev). set (acc := exact_acc zx zk xq (nth j W []) (nth j bias 0)) in *.
  exists v. split; [exact Hv|]. set (M := (si * sk / so)%Q) in *.
  assert (MS : (so * M == si * sk)%Q) by (unfold M; field; lra).
  assert (D := acc_close si zx sk zk xq (nth j W []) (nth j bias 0) x w b ex ew eb Pex Pew Lx Hx Hw Hbb). fold acc in D.
  set (A := sumQ_upto (length x) _) in *.
  assert (PM : (0 < si * sk)%Q) by nra.
  setoid_replace (so * inject_Z (v - zo) - dense x w b)%Q
      with (so * (inject_Z v - (inject_Z zo + M * inject_Z acc)) + (si * sk * inject_Z acc - dense x w b))%Q
      by (rewrite <- MS, inject_Z_minus; ring).
  eapply Qle_trans; [apply Qabs_triangle|].
  rewrite Qabs_Qmult, (Qabs_pos so) by lra.
  assert (F : (so * Qabs (inject_Z v - (inject_Z zo + M * inject_Z acc)) <= so * (1#2) + si * sk * (inject_Z (Z.abs acc) * u31))%Q).
  { apply Qle_trans with (so * ((1#2) + inject_Z (Z.abs acc) * (M * u31)))%Q.
    - apply Qmult_le_l; [exact Pso|exact Ev].
    - rewrite <- MS. apply Qle_lteq. right. ring. }
  assert (U : (inject_Z (Z.abs acc) * u31 <= 1)%Q).
  { apply Qle_trans with (inject_Z (2 ^ 31) * u31)%Q; [|discriminate].
    apply Qmult_le_compat_r; [apply (proj1 (Zle_inj _ _)); exact Hacc|discriminate]. }
  assert (U' : (si * sk * (inject_Z (Z.abs acc) * u31) <= si * sk * 1)%Q) by (apply Qmult_le_l; assumption).
  lra.
Qed.
Lemma acc_bound_zp di zx zk (xq w : list Z) K b : in_dtype di zx -> (forall v, In v xq -> in_dtype di v) ->
  (forall v, In v w -> Z.abs (v - zk) <= K) -> length w = length xq ->
  Z.abs (exact_acc zx zk xq w b) <= Z.of_nat (length xq) * ((gmax di - gmin di) * K) + Z.abs b.
Proof.
  intros Hz Hx Hw L. unfold exact_acc.
  assert (S1 : Z.abs (sumZ_upto (length xq) (fun i => (nth i xq 0 - zx) * (nth i w 0 - zk))) <= Z.of_nat (length xq) * ((gmax di - gmin di) * K)).
  { apply sum_abs_bound. intros i Hi. rewrite Z.abs_mul.
    pose proof (Hx (nth i xq 0) (nth_In _ _ Hi)). assert (Hi' : (i < length w)%nat) by lia. pose proof (Hw (nth i w 0) (nth_In _ _ Hi')).
    unfold in_dtype in *. apply Z.mul_le_mono_nonneg; lia. }
  lia.
Qed.
Lemma usable_ok n : usable n -> exists q, node_ok n q.
Proof. intros (q & A & B & C & D). exists q. constructor; assumption. Qed.
Lemma ok_usable n q : node_ok n q -> usable n.
Proof. intros [A B C D]. exists q. auto. Qed.
Lemma node_ok_fun n q q' : node_ok n q -> parse_dtype (pn_dtype n) = Ok q' -> q' = q.
Proof. intros [A _ _ _] B. congruence. Qed.

(** one fully connected operator *)
Lemma fc_step l inp k b n m bv qi q name N : layer_shaped N l -> node_ok inp qi -> fc_fits l inp k b n m bv -> node_ok n q ->
  exists ly lf, build_layer ie_builders (mkjop (str "FULLY_CONNECTED") name (mkpb [inp; k; b] [n])) = Ok ly /\ rowwise ly (g_fc lf) /\
    forall x xq e, near inp qi e x xq -> length x = N ->
    exists yq, g_fc lf xq = Ok yq /\ length yq = kd_units l /\ (forall v, In v yq -> in_dtype q v) /\
      forall j, (j < kd_units l)%nat -> exists v, nth j yq 0 = clamp (gmin q) (gmax q) v /\
        (Qabs (pn_scale n * inject_Z (v - pn_zp n) - nth j (affine l x) 0%Q) <=
           fc_cert l (mkjop (str "FULLY_CONNECTED") name (mkpb [inp; k; b] [n])) x e)%Q.
Proof.
  intros Sh NI [TK TB LM LC LB Psk US [M1 M2] (di & K & PD & HK & ACC)] NO. pose proof Sh as (Hn & Hu & LK & LR & _).
  assert (di = qi) by (eapply node_ok_fun; eassumption). subst di.
  set (si := pn_scale inp) in *. set (sk := pn_scale k) in *. set (so := pn_scale n) in *.
  assert (Psi : (0 < si)%Q) by apply (no_pos _ _ NI). assert (Pso : (0 < so)%Q) by apply (no_pos _ _ NO).
  assert (Pii : (0 < si * sk)%Q) by nra.
  destruct (proj2 (C17_buildable_iff si (pn_zp inp) sk (pn_zp k) m bv so (pn_zp n) q)) as [lf Hlf].
  { split; [lra|]. eapply Qlt_le_trans; [exact M2|]. discriminate. }
  assert (EM : exists mm, fc_mult_of si sk so = Ok mm).
  { unfold fc_build in Hlf. destruct (fc_mult_of _ _ _) as [mm|]; [eauto|discriminate]. }
  destruct EM as [mm EM].
  eexists _, lf. split; [|split].
  - unfold build_layer. cbn [jo_type jo_body].
    assert (build_layer_kind (str "FULLY_CONNECTED") = Ok KFullyConnected) as -> by (vm_compute; reflexivity).
    cbn [rbind ie_builders b_tflite]. unfold ie_fc. cbn [pb_in pb_out].
    change (py_index [inp; k; b] 0) with (Ok inp). change (py_index [inp; k; b] 1) with (Ok k). change (py_index [inp; k; b] 2) with (Ok b).
    change (py_index [n] 0) with (Ok n). cbn [rbind]. rewrite TK, TB. fold si sk so.
    rewrite EM. cbn [rbind]. rewrite (no_dtype _ _ NO). cbn [rbind]. rewrite Hlf. cbn [rbind]. reflexivity.
  - intros xs ys _ _ F. cbn [asI].
    assert (fc_infer lf (T2 xs) = Ok (T2 ys)) as ->; [|reflexivity].
    apply C16_batch_is_rowwise. clear -F. induction F; constructor; auto. now apply g_fc_ok.
  - intros x xq e NX Lx. destruct NX as [NX1 NX2 NX3].
    assert (XN : x <> []) by (destruct x; cbn in *; [lia|discriminate]).
    assert (E0 : (0 <= e)%Q) by (apply (near_nonneg inp qi e x xq); [constructor; assumption|exact XN]).
    assert (GS : good_shapes m bv xq). { split; [intros w Hw; rewrite (LC w Hw); lia|lia]. }
    destruct (fc_row_zp si (pn_zp inp) sk (pn_zp k) so (pn_zp n) q m bv lf xq x e Psi Psk Pso E0 Hlf GS (no_narrow _ _ NO) (no_zp _ _ NO) M1 ltac:(lia) NX3)
      as (y & Y1 & Y2 & Y3 & Y4).
    exists y. split; [apply g_fc_ok, Y1|]. split; [lia|]. split; [exact Y3|].
    intros j Hj. rewrite affine_nth by exact Hj.
    set (w := column j (kd_kernel l)). set (bj := bias_at l j). set (ek := kernel_err l k m).
    assert (EK0 : (0 <= ek)%Q) by apply maxQ_nonneg.
    assert (LW : length w = N) by (unfold w, column; now rewrite map_length).
    assert (JM : In (nth j m []) m) by (apply nth_In; lia).
    destruct (Y4 j w bj ek (bias_err l inp k bv) ltac:(lia) EK0) as (v & V1 & V2).
    + intros i Hi. apply (kernel_err_ge l k m j i Hj). lia.
    + apply (bias_err_ge l inp k bv j Hj).
    + eapply Z.le_trans; [apply (acc_bound_zp qi _ _ _ _ K)|].
      * apply (no_zp _ _ NI).
      * exact NX2.
      * intros v Hv. exact (HK _ _ JM Hv).
      * rewrite (LC _ JM). lia.
      * replace (length xq) with (length (kd_kernel l)) by lia. apply ACC. apply nth_In. lia.
    + exists v. split; [exact V1|]. eapply Qle_trans; [exact V2|]. unfold fc_cert. cbn [jo_body pb_in pb_out]. rewrite TK, TB. fold ek si sk so.
      assert (SB : (sumQ_upto (length x) (fun i => e * Qabs (nth i w 0%Q) + ek * Qabs (nth i x 0%Q) + e * ek) <=
           e * wsum l + ek * abssum x + inject_Z (Z.of_nat (length x)) * (e * ek))%Q).
      { rewrite (sumQ_upto_split (length x) (fun i => e * Qabs (nth i w 0%Q) + ek * Qabs (nth i x 0%Q))%Q (fun _ => e * ek)%Q).
        rewrite (sumQ_upto_split (length x) (fun i => e * Qabs (nth i w 0%Q))%Q (fun i => ek * Qabs (nth i x 0%Q))%Q).
        rewrite !sumQ_upto_scale, sumQ_upto_const.
        rewrite <- (abssum_upto x (length x) eq_refl). rewrite <- (abssum_upto w (length x)) by lia.
        apply Qplus_le_compat; [|lra]. apply Qplus_le_compat; [|lra].
        rewrite !(Qmult_comm e). apply Qmult_le_compat_r; [apply wsum_ge, Hj|exact E0]. }
      lra.
Qed.

(** all layers *)
Lemma implements_runs L D : forall ls inp ops out, implements ls inp ops out -> forall n qi, shaped n ls -> node_ok inp qi ->
  (forall l, In l ls -> is_table l = true -> lipschitz L D l) ->
  exists qo lys gs, node_ok out qo /\ length ops = op_count ls /\ mapM (build_layer ie_builders) ops = Ok lys /\ Forall2 rowwise lys gs /\
    forall x xq e, near inp qi e x xq -> length x = n -> exists yq, chain gs xq yq /\ near out qo (cert L D ls ops x e) (net_out ls x) yq.
Proof.
  assert (HXN : forall n inp qi x xq e, (0 < n)%nat -> near inp qi e x xq -> length x = n -> xq <> []).
  { intros n inp qi x xq e Hn [NX1 _ _] Lx ->. destruct x; cbn in *; [lia|discriminate]. }
  assert (AIN : forall l x j, (j < kd_units l)%nat -> In (nth j (affine l x) 0%Q) (affine l x)).
  { intros l x j Hj. apply nth_In. rewrite affine_length. exact Hj. }
  induction 1 as [inp|l ls inp k b n m bv name ops out T FF IM IH|l ls inp k b n m bv name t name' o ops out T FF TO UO TOK IM IH]; intros N qi Sh NI LIP.
  - exists qi, [], []. split; [exact NI|]. split; [reflexivity|]. split; [reflexivity|]. split; [constructor|].
    intros x xq e NX _. exists xq. split; [constructor|exact NX].
  - apply shaped_layer in Sh as (SL & SR & Hn).
    destruct (usable_ok n (ff_out _ _ _ _ _ _ _ FF)) as (q & NO).
    destruct (fc_step l inp k b n m bv qi q name N SL NI FF NO) as (ly & lf & B1 & B2 & B3).
    destruct (IH (kd_units l) q SR NO) as (qo & lys & gs & NOUT & CNT & C1 & C2 & C3); [intros; apply LIP; [now right|assumption]|].
    exists qo, (ly :: lys), (g_fc lf :: gs). split; [exact NOUT|].
    split; [unfold op_count; cbn [length fold_right]; rewrite T, CNT; reflexivity|].
    split; [cbn [mapM]; rewrite B1; cbn [rbind]; rewrite C1; reflexivity|]. split; [constructor; assumption|].
    intros x xq e NX Lx. destruct (B3 x xq e NX Lx) as (yq & Y1 & Y2 & Y3 & Y4).
    set (op := mkjop (str "FULLY_CONNECTED") name (mkpb [inp; k; b] [n])) in *.
    set (e1 := fc_cert l op x e) in *. set (lk := leak l n). set (exc := excess n (layer_out l x)).
    set (mm := Qmax e1 (Qmax lk exc)).
    assert (NY : near n q mm (layer_out l x) yq).
    { constructor; [rewrite layer_out_length; exact Y2|exact Y3|].
      rewrite layer_out_length. intros j Hj. destruct (Y4 j Hj) as (v & V1 & V2). rewrite V1, layer_out_nth by exact Hj.
      set (a := nth j (affine l x) 0%Q) in *. set (so := pn_scale n) in *.
      pose proof (no_pos _ _ NO) as SP. pose proof (no_narrow _ _ NO) as (N1 & N2 & N3). pose proof (no_zp _ _ NO) as SZ. pose proof (no_dtype _ _ NO) as PBA. fold so in SP.
      assert (EI : In (act_fn l a) (layer_out l x)) by (apply in_map, AIN, Hj).
      destruct (excess_in n (layer_out l x) (act_fn l a) EI) as [X1 X2]. fold exc in X1, X2.
      pose proof (Q.le_max_l e1 (Qmax lk exc)) as Z1. pose proof (Q.le_max_r e1 (Qmax lk exc)) as Z2. fold mm in Z1, Z2.
      apply Qmax_lub' in Z2 as [Z2 Z3].
      rewrite (top_eq n q PBA) in X1. rewrite (bottom_eq n q PBA) in X2. fold so in X1, X2.
      unfold act_fn in *. rewrite T in *. unfold lk, leak in Z2. rewrite T in Z2.
      destruct (is_relu l) eqn:R1.
      - rewrite (bottom_eq n q PBA) in Z2. fold so in Z2. apply (clamp_relu so (pn_zp n) q v a e1); try assumption; lra.
      - destruct (is_relu6 l) eqn:R6.
        + apply Qmax_lub' in Z2 as [Z2 Z4]. rewrite (bottom_eq n q PBA) in Z2. rewrite (top_eq n q PBA) in Z4. fold so in Z2, Z4.
          apply (clamp_relu6 so (pn_zp n) q v a e1); try assumption; lra.
        + apply (clamp_sat so (pn_zp n) q v a e1); try assumption; try lra; lia. }
    destruct (C3 (layer_out l x) yq mm NY (layer_out_length l x)) as (zq & Z1 & Z2).
    exists zq. split; [econstructor; [exact (HXN _ _ _ _ _ _ Hn NX Lx)|exact Y1|exact Z1]|].
    cbn [cert]. rewrite T. change (out_node op) with n. exact Z2.
  - apply shaped_layer in Sh as (SL & SR & Hn). pose proof SL as (_ & Hu & _).
    destruct (usable_ok n (ff_out _ _ _ _ _ _ _ FF)) as (q & NO). destruct (usable_ok o UO) as (qo' & NOO).
    destruct (fc_step l inp k b n m bv qi q name N SL NI FF NO) as (ly & lf & B1 & B2 & B3).
    destruct (IH (kd_units l) qo' SR NOO) as (qo & lys & gs & NOUT & CNT & C1 & C2 & C3); [intros; apply LIP; [now right|assumption]|].
    destruct TOK as (q1 & q2 & P1 & P2 & TOK). assert (q1 = q) by (eapply node_ok_fun; eassumption). assert (q2 = qo') by (eapply node_ok_fun; eassumption). subst q1 q2.
    assert (LA : exists a, lut_from_node (pn_lut n) = Ok a).
    { pose proof (no_narrow _ _ NO) as (W & _). pose proof (no_zp _ _ NO) as Z0. destruct (TOK _ Z0) as (d & E & _). unfold table_at in E.
      destruct (lut_from_node (pn_lut n)); [eauto|discriminate]. }
    destruct LA as (a & LA).
    assert (TA : forall c, table_at n c = lookup (la_table a) (c + la_offset a)) by (intros c; unfold table_at; rewrite LA; reflexivity).
    assert (BL : exists ly2, build_layer ie_builders (mkjop t name' (mkpb [n] [o])) = Ok ly2 /\ rowwise ly2 (g_lut a)).
    { eexists. split.
      - unfold build_layer. cbn [jo_type jo_body].
        assert (KD : exists kk, build_layer_kind t = Ok kk /\ (kk = KTanhLUT \/ kk = KSigmoidLUT)).
        { destruct TO as [-> | ->]; eexists; (split; [vm_compute; reflexivity|tauto]). }
        destruct KD as (kk & -> & KK). cbn [rbind ie_builders b_tflite].
        transitivity (ie_lut (mkpb [n] [o])); [destruct KK as [-> | ->]; reflexivity|].
        unfold ie_lut. change (py_index (pb_in (mkpb [n] [o])) 0) with (Ok n). cbn [rbind]. rewrite LA. cbn [rbind]. reflexivity.
      - intros xs ys NE XN F. cbn [asI].
        assert (CN : concat xs <> []).
        { destruct xs as [|r xs]; [congruence|]. specialize (XN r ltac:(now left)). destruct r; [congruence|discriminate]. }
        destruct (concat xs) as [|z0 zs]; [congruence|].
        assert (MM : mapM (g_lut a) xs = Ok ys) by (apply mapM_inv; exact F).
        transitivity (do m0 <- mapM (g_lut a) xs; Ok (VI m0)); [reflexivity|]. rewrite MM. reflexivity. }
    destruct BL as (ly2 & BL1 & BL2).
    exists qo, (ly :: ly2 :: lys), (g_fc lf :: g_lut a :: gs). split; [exact NOUT|].
    split; [unfold op_count; cbn [length fold_right]; rewrite T, CNT; reflexivity|].
    split; [cbn [mapM]; rewrite B1; cbn [rbind]; rewrite BL1; cbn [rbind]; rewrite C1; reflexivity|]. split; [constructor; [assumption|constructor; assumption]|].
    intros x xq e NX Lx. destruct (B3 x xq e NX Lx) as (yq & Y1 & Y2 & Y3 & Y4).
    set (op := mkjop (str "FULLY_CONNECTED") name (mkpb [inp; k; b] [n])) in *.
    destruct (LIP l (or_introl eq_refl) T) as (L0 & D0 & LI).
    set (e1 := fc_cert l op x e) in *. set (exa := excess n (affine l x)). set (e2 := Qmax e1 exa).
    set (te := table_err (kd_fn l) n o). set (mm := (L l * e2 + D l + te)%Q).
    pose proof (no_pos _ _ NO) as SP. pose proof (no_narrow _ _ NO) as (N1 & N2 & N3). pose proof (no_dtype _ _ NO) as PBA.
    set (h := fun v => match table_at n v with Ok d => d | Err _ => 0 end).
    assert (GL : g_lut a yq = Ok (map h yq)).
    { unfold g_lut. apply mapM_ok_map. intros v Hv. destruct (TOK v (Y3 v Hv)) as (d & E & _). unfold h. rewrite E. rewrite <- TA. exact E. }
    assert (ONE : forall i, (i < kd_units l)%nat -> in_dtype qo' (h (nth i yq 0)) /\
       (Qabs (pn_scale o * inject_Z (h (nth i yq 0%Z) - pn_zp o) - kd_fn l (nth i (affine l x) 0%Q)) <= mm)%Q).
    { intros i Hi. destruct (Y4 i Hi) as (v & V1 & V2). set (ai := nth i (affine l x) 0%Q) in *.
      assert (IY : in_dtype q (nth i yq 0)) by (apply Y3, nth_In; lia).
      destruct (TOK _ IY) as (d & E & ID). unfold h. rewrite E. split; [exact ID|].
      assert (P1' : (Qabs (pn_scale n * inject_Z (nth i yq 0%Z - pn_zp n) - ai) <= e2)%Q).
      { rewrite V1. destruct (excess_in n (affine l x) ai (AIN l x i Hi)) as [X1 X2]. fold exa in X1, X2.
        rewrite (top_eq n q PBA) in X1. rewrite (bottom_eq n q PBA) in X2.
        pose proof (Q.le_max_l e1 exa) as M1. pose proof (Q.le_max_r e1 exa) as M2. fold e2 in M1, M2.
        apply (clamp_sat (pn_scale n) (pn_zp n) q v ai e1); [exact SP|lia|exact V2|exact M1|lra|lra]. }
      pose proof (table_err_ge (kd_fn l) n o q _ d PBA IY E) as TE. fold te in TE.
      fold (real_of o d). fold (real_of n (nth i yq 0)) in P1'. set (r := real_of n (nth i yq 0)) in *.
      setoid_replace (real_of o d - kd_fn l ai)%Q with ((real_of o d - kd_fn l r) + (kd_fn l r - kd_fn l ai))%Q by ring.
      eapply Qle_trans; [apply Qabs_triangle|]. unfold mm.
      assert (X : (Qabs (kd_fn l r - kd_fn l ai) <= L l * e2 + D l)%Q).
      { eapply Qle_trans; [apply LI|]. apply Qplus_le_compat; [|lra]. rewrite !(Qmult_comm (L l)). apply Qmult_le_compat_r; [exact P1'|exact L0]. }
      lra. }
    assert (NY : near o qo' mm (layer_out l x) (map h yq)).
    { constructor.
      - rewrite layer_out_length, map_length. exact Y2.
      - intros v Hv. apply in_map_iff in Hv as (u & <- & Hu'). apply In_nth with (d := 0) in Hu' as (i & Hi & <-). rewrite Y2 in Hi. apply (ONE i Hi).
      - rewrite layer_out_length. intros i Hi.
        rewrite nth_indep with (d' := h 0) by (rewrite map_length, Y2; exact Hi). rewrite map_nth.
        rewrite layer_out_nth by exact Hi. unfold act_fn. rewrite T. apply (ONE i Hi). }
    destruct (C3 (layer_out l x) (map h yq) mm NY (layer_out_length l x)) as (zq & Z1 & Z2).
    exists zq. split.
    + econstructor; [exact (HXN _ _ _ _ _ _ Hn NX Lx)|exact Y1|]. econstructor; [|exact GL|exact Z1]. intros ->. cbn in Y2. lia.
    + cbn [cert]. rewrite T. change (out_node op) with n. change (out_node (mkjop t name' (mkpb [n] [o]))) with o. exact Z2.
Qed.

(** ** C79 *)
(** Any file of the shape the exporter produces for a dense network - whatever tuned its scales, zero points, weights, biases and
    tables - loads, and for every batch of inputs of the right length every output of the integer network is within [cert] of the
    float network it is compared with.  [cert] is computed from the file: the differences of its weights, biases and table entries
    from the float ones, and its scales. *)
Theorem C79_certificate : forall ls n L D j qop ops out, dense_file ls n j qop ops out ->
  (forall l, In l ls -> is_table l = true -> lipschitz L D l) ->
  exists net, pipe_load j = Ok net /\
  forall batch, batch <> [] -> (forall x, In x batch -> length x = n) ->
  exists Y, pipe_infer net batch = Ok (VF Y) /\
    Forall2 (fun x y => within (cert L D ls ops x (input_err qop x)) y (net_out ls x)) batch Y.
Proof.
  intros ls n L D j qop ops out [Hn Sh EE EG EI EO (nd & UN & EQ & IM)] LIP.
  destruct (usable_ok nd UN) as (q & NI).
  destruct (implements_runs L D ls nd ops out IM n q Sh NI LIP) as (qo & lys & gs & NO & CNT & B1 & B2 & B3).
  set (dop := mkjop (str "DEQUANTIZE") (str "DEQUANTIZE") (mkpb [out] [])) in *.
  assert (BQ : exists lq, build_layer ie_builders qop = Ok lq /\ forall b, lq (VF b) = Ok (VI (map (map (quant1 q (pn_zp nd) (pn_scale nd))) b))).
  { eexists. split.
    - rewrite EQ. unfold build_layer. cbn [jo_type jo_body].
      assert (build_layer_kind (str "QUANTIZE") = Ok KQuantize) as -> by (vm_compute; reflexivity).
      cbn [rbind ie_builders b_tflite]. unfold ie_quantize. cbn [pb_out]. change (py_index [nd] 0) with (Ok nd). cbn [rbind].
      rewrite (no_dtype _ _ NI). cbn [rbind]. reflexivity.
    - intros b. reflexivity. }
  assert (BD : exists ld, build_layer ie_builders dop = Ok ld /\ forall m, ld (VI m) = Ok (VF (map (map (dequant1 (pn_zp out) (pn_scale out))) m))).
  { eexists. split.
    - unfold build_layer, dop. cbn [jo_type jo_body].
      assert (build_layer_kind (str "DEQUANTIZE") = Ok KDequantize) as -> by (vm_compute; reflexivity).
      cbn [rbind ie_builders b_tflite]. unfold ie_dequantize. cbn [pb_in]. change (py_index [out] 0) with (Ok out). cbn [rbind].
      rewrite (no_dtype _ _ NO). cbn [rbind]. reflexivity.
    - intros b. reflexivity. }
  destruct BQ as (lq & BQ1 & BQ2), BD as (ld & BD1 & BD2).
  assert (MA : mapM (build_layer ie_builders) (qop :: ops ++ [dop]) = Ok (lq :: lys ++ [ld])).
  { cbn [mapM]. rewrite BQ1. cbn [rbind].
    rewrite (mapM_app_ok _ ops [dop] lys [ld] B1); [reflexivity|]. cbn [mapM]. rewrite BD1. reflexivity. }
  exists (mkseq true None None (lq :: lys ++ [ld]) []). split.
  { unfold pipe_load, seq_init. rewrite EI, EO, EG, EE.
    change (py_index [Some (mkjnode None None)] 0) with (Ok (Some (mkjnode None None))). cbn [rbind].
    change (py_index (qop :: ops ++ [dop]) 0) with (Ok qop). cbn [rbind].
    assert (contains (chars_of "QUANT") (upper (jo_name qop)) = true) as -> by (rewrite EQ; vm_compute; reflexivity).
    assert (get_engine ie_builders (str "tflite") = Ok (build_layer ie_builders)) as -> by reflexivity.
    cbn [rbind]. rewrite MA. reflexivity. }
  intros batch BN HB.
  set (bq := map (map (quant1 q (pn_zp nd) (pn_scale nd))) batch).
  assert (CH : exists yq, Forall2 (chain gs) bq yq /\
    Forall2 (fun x y => near out qo (cert L D ls ops x (input_err qop x)) (net_out ls x) y) batch yq).
  { unfold bq. clear BN bq. induction batch as [|x batch IH].
    - exists []. split; constructor.
    - destruct IH as (yq & I1 & I2). { intros; apply HB; now right. }
      pose proof (HB x ltac:(now left)) as Lx.
      destruct (B3 x (map (quant1 q (pn_zp nd) (pn_scale nd)) x) (input_err qop x)) as (y & Y1 & Y2); [|exact Lx|].
      + rewrite EQ. apply (rinput_near nd q x NI).
      + exists (y :: yq). split; constructor; assumption. }
  destruct CH as (yq & C1 & C2).
  assert (BQN : bq <> []) by (unfold bq; destruct batch; [congruence|discriminate]).
  destruct (chain_runs lys gs B2 bq yq BQN C1) as (t & R).
  assert (RA : exists t', runs (lq :: lys ++ [ld]) (VF batch) t' (VF (map (map (dequant1 (pn_zp out) (pn_scale out))) yq))).
  { assert (X : exists t', runs (lys ++ [ld]) (VI bq) t' (VF (map (map (dequant1 (pn_zp out) (pn_scale out))) yq))).
    { clear -R BD2. remember (VI bq) as a eqn:Ea. remember (VI yq) as b eqn:Eb. clear Ea. induction R as [x|l lys x y t z E _ IH].
      - subst. eexists. cbn [app]. econstructor; [apply BD2|constructor].
      - destruct (IH Eb) as [t' X]. eexists. cbn [app]. econstructor; [exact E|exact X]. }
    destruct X as [t' X]. eexists. econstructor; [apply BQ2|exact X]. }
  destruct RA as (t' & RA).
  exists (map (map (dequant1 (pn_zp out) (pn_scale out))) yq). split.
  { unfold pipe_infer.
    rewrite (proj1 (C20_infer_composes _ no_toi8 (mkseq true None None (lq :: lys ++ [ld]) []) (VF batch) t' _ eq_refl) RA). reflexivity. }
  clear -C2 NO. induction C2 as [|x y batch yq H _ IH]; cbn [map]; constructor; [|exact IH].
  destruct H as [H1 H2 H3]. split; [now rewrite map_length|].
  intros i Hi. set (h := dequant1 (pn_zp out) (pn_scale out)).
  rewrite (nth_indep (map h y) 0%Q (h 0)) by (rewrite map_length, H1; exact Hi). rewrite map_nth. unfold h.
  pose proof (no_narrow _ _ NO) as (N1 & N2 & N3). pose proof (no_zp _ _ NO) as NZ.
  assert (IY : in_dtype qo (nth i y 0)) by (apply H2, nth_In; lia).
  rewrite (dequant1_nowrap qo) by (try exact N1; try exact IY; unfold zp_nowrap, in_dtype, within_int32 in *; lia).
  rewrite (Qmult_comm (inject_Z _)). apply H3, Hi.
Qed.


(** ** The builder's files *)
Lemma rexport_implements c l ls qk q qb d qi inp ops ops' out out' n :
  layer_cfg c (kd_name l) = CDense d -> good_cfg d qk q qb -> plain_act l \/ table_act l \/ relu_act l -> layer_shaped n l ->
  node_ok inp qi -> rexport l qk q qb (d_sym d) inp ops out -> Forall op_ok ops ->
  node_ok out q /\ (implements ls out ops' out' -> implements (l :: ls) inp (ops ++ ops') out').
Proof.
  intros EC G HA Sh NI [(sk & m & ba & Psk & FM & PBA & HE)] OK.
  pose proof Sh as (Hn & Hu & LK & LR & _). destruct G as [Gopt Gk Ga Gba Gb Nk N Nb Gpos Gsym].
  set (k := mkpn sk 0 (grepr qk) [length (kd_w l); width (kd_w l)] (PMat m) None) in *.
  set (b := quant_bias qb (pn_scale inp) sk (kd_b l)) in *. cbv zeta in HE. fold k b in HE.
  set (si := pn_scale inp) in *.
  assert (LM : length m = kd_units l).
  { rewrite <- (kd_w_length l). clear -FM. induction FM; cbn; congruence. }
  assert (MJ : forall j, (j < kd_units l)%nat ->
     Forall2 (fun c x => in_dtype qk c /\ (Qabs (sk * inject_Z c - x) <= if d_sym d then sk * (1#2) else sk)%Q) (nth j m []) (column j (kd_kernel l))).
  { intros j Hj. rewrite <- (kd_w_nth l j []) by exact Hj. clear -FM Hj LM. 
    rewrite <- LM in Hj. revert j Hj. clear LM. induction FM as [|r w m ws H _ IH]; intros j Hj; [cbn in Hj; lia|].
    destruct j as [|j]; [exact H|]. apply IH. cbn in Hj. lia. }
  assert (LMJ : forall r, In r m -> length r = n /\ forall v, In v r -> in_dtype qk v).
  { intros r Hr. apply In_nth with (d := []) in Hr as (j & Hj & <-). assert (Hj' : (j < kd_units l)%nat) by lia. specialize (MJ j Hj'). split.
    - apply F2_length in MJ. rewrite MJ. unfold column. now rewrite map_length.
    - clear -MJ. induction MJ as [|c0 x0 cs xs H _ IH]; intros v Hv; [destruct Hv|]. destruct Hv as [<- |Hv]; [apply H|exact (IH v Hv)]. }
  assert (WM : width m = n).
  { unfold width. destruct m as [|r m]; [cbn in LM; lia|]. apply LMJ. now left. }
  assert (PK : parse_dtype (grepr qk) = Ok qk) by (apply (C06_str_roundtrip _ _ Gk)).
  assert (PB : parse_dtype (grepr qb) = Ok qb) by (apply (C06_str_roundtrip _ _ Gb)).
  assert (FC : forall ba', node_ok ba' q -> fc_op_ok (fc_oper l inp k b ba') ->
    fc_fits l inp k b ba' m (map (quant1 qb 0 (si * sk)) (kd_b l))).
  { intros ba' NB' OKF.
    destruct (OKF inp k b ba' m (map (quant1 qb 0 (si * sk)) (kd_b l)) qi qk qb eq_refl eq_refl eq_refl eq_refl (no_dtype _ _ NI) PK PB) as (M1 & M2 & BV).
    constructor.
    - reflexivity.
    - reflexivity.
    - exact LM.
    - intros r Hr. destruct (LMJ r Hr) as [-> _]. now symmetry.
    - rewrite map_length. apply (kd_b_length n). exact Sh.
    - exact Psk.
    - apply (ok_usable _ q NB').
    - split; assumption.
    - exists qi, (Z.max (gmax qk) (- gmin qk)). split; [apply (no_dtype _ _ NI)|]. split.
      + intros r cc Hr Hc. destruct (LMJ r Hr) as [_ H]. destruct (H cc Hc) as [D1 D2]. cbn [pn_zp k]. lia.
      + intros v Hv. destruct (BV v Hv) as [_ H]. rewrite WM in H. rewrite LK. exact H. }
  assert (T : is_table l = false \/ table_act l).
  { destruct HA as [H|[H|H]]; [left; apply plain_facts in H; tauto|now right|left; apply relu_facts in H; tauto]. }
  destruct T as [T1|HT].
  - rewrite T1 in HE. destruct HE as [-> ->]. inversion OK as [|? ? [OK1 OK2] _]; subst.
    destruct (OK2 ba (or_introl eq_refl)) as [SP SZ]. specialize (SZ q PBA).
    assert (NB : node_ok ba q) by (constructor; assumption).
    split; [exact NB|]. intros IM. cbn [app]. exact (im_fc l ls inp k b ba m _ _ ops' out' T1 (FC ba NB OK1) IM).
  - destruct (table_facts l HT) as (T1 & _). rewrite T1 in HE. destruct HE as (os & oz & sh & -> & ->).
    set (o := mkpn os oz (grepr q) sh PNone None) in *.
    set (ba' := attach_lut ba q (kd_fn l) os oz) in *.
    inversion OK as [|? ? [OK1 OK2] OK']; subst. inversion OK' as [|? ? [_ OK3] _]; subst.
    destruct (OK2 ba' (or_introl eq_refl)) as [SP SZ]. specialize (SZ q PBA).
    assert (PO : parse_dtype (pn_dtype o) = Ok q) by (apply (C06_str_roundtrip _ _ Gba)).
    destruct (OK3 o (or_introl eq_refl)) as [SPo SZo]. specialize (SZo q PO).
    assert (NB' : node_ok ba' q) by (constructor; assumption).
    assert (NO : node_ok o q) by (constructor; assumption).
    split; [exact NO|]. intros IM. cbn [app].
    apply (im_table l ls inp k b ba' m (map (quant1 qb 0 (si * sk)) (kd_b l)) _ _ _ o ops' out' T1 (FC ba' NB' OK1)).
    + unfold table_op. destruct HT as [-> | ->]; [left|right]; reflexivity.
    + exact (ok_usable _ _ NO).
    + exists q, q. split; [exact PBA|]. split; [exact PO|]. pose proof N as (N1 & N2 & N3). intros v Hv.
      exists (quant1 q oz os (kd_fn l (dequant1 (pn_zp ba) (pn_scale ba) v))). split.
      * pose proof (C33_fresh_lookup q (kd_fn l) (pn_scale ba) (pn_zp ba) os oz v N1 Hv) as E.
        unfold NodeModel.lut_call in E. unfold table_at. transitivity (lookup (Full (NodeModel.l_table (NodeModel.lut_new q (kd_fn l) (pn_scale ba) (pn_zp ba) os oz)))
           (v + NodeModel.lut_offset (NodeModel.lut_new q (kd_fn l) (pn_scale ba) (pn_zp ba) os oz))); [reflexivity|]. cbn [lookup]. rewrite E. reflexivity.
      * apply q_round_range. exact N1.
    + exact IM.
Qed.
Lemma rlayers_implement c : forall ls n inp data qi ops out,
  shaped n (denses ls) -> Forall (good_rlayer c) (denses ls) -> node_ok inp qi -> (forall r, In r data -> length r = n) ->
  pipe_layers c ls inp data = Ok (ops, out) -> Forall op_ok ops -> implements (denses ls) inp ops out.
Proof.
  induction ls as [|p ls IH]; intros n inp data qi ops out Sh G NI LD PL OK.
  - cbn [pipe_layers] in PL. assert (ops = []) by congruence. assert (out = inp) by congruence. subst. constructor.
  - destruct p as [l|]; [|exact (IH n inp data qi ops out Sh G NI LD PL OK)]. cbn [denses] in Sh, G.
    apply shaped_layer in Sh as (SL & SR & _).
    inversion G as [|? ? (HA & d & qk & q & qb & EC & GC) GR]; subst.
    cbn [pipe_layers] in PL. destruct (pipe_dense (layer_cfg c (kd_name l)) l inp data) as [[[ops1 out1] data1]|] eqn:PD; [|discriminate].
    cbn [rbind] in PL. destruct (pipe_layers c ls out1 data1) as [[ops2 out2]|] eqn:PL2; [|discriminate]. cbn [rbind fst snd] in PL.
    assert (EO : ops = ops1 ++ ops2) by congruence. assert (EU : out = out2) by congruence. subst ops out. clear PL.
    destruct (pipe_dense_inv c l inp data d qk q qb n ops1 out1 data1 EC GC HA SL LD PD) as [ED RE]. subst data1.
    apply Forall_app_inv in OK as [OK1 OK2].
    destruct (rexport_implements c l (denses ls) qk q qb d qi inp ops1 ops2 out1 out2 n EC GC HA SL NI RE OK1) as [NO IM].
    apply IM. apply (IH (kd_units l) out1 (map (float_layer l) data) q); try assumption.
    intros r Hr. apply in_map_iff in Hr as (y & <- & _). apply float_layer_length.
Qed.
(** Every file the builder exports (under C65's conditions) is such a file. *)
Theorem C79_builder_files : forall c ls data n j, rready c ls data n -> pipe_build c ls data = Ok j -> Forall op_ok (jt_graph j) ->
  exists qop ops out, dense_file (denses ls) n j qop ops out.
Proof.
  intros c ls data n j [[q [P N]] Hn Sh G LD NE] PB OK.
  destruct (pipe_input_ok _ q data n P N NE Hn LD) as (nd & EI & NI & FN).
  unfold pipe_build in PB. rewrite EI in PB. cbn [rbind fst snd] in PB.
  destruct (pipe_layers c ls nd data) as [[ops out]|] eqn:PL; [|discriminate]. cbn [rbind fst snd] in PB.
  match type of PB with Ok ?a = Ok j => assert (EJ : j = a) by congruence end. clear PB.
  rewrite EJ in OK. cbn [jt_graph] in OK. inversion OK as [|? ? _ OK']; subst. apply Forall_app_inv in OK' as [OK1 _].
  eexists _, ops, out. constructor; [exact Hn|exact Sh|reflexivity|reflexivity|reflexivity|reflexivity|].
  exists nd. split; [exact (ok_usable _ _ NI)|]. split; [reflexivity|]. exact (rlayers_implement c ls n nd data q ops out Sh G NI LD PL OK1).
Qed.

(** ** Rounding policies *)
(** two rounding policies between 0 and 1 give codes that differ by at most one *)
Theorem C79_policies_nudge : forall q z s x p p', within_int32 q -> (0 <= p <= 1)%Q -> (0 <= p' <= 1)%Q ->
  near_code (quant1p q z s x p) (quant1p q z s x p').
Proof.
  intros q z s x p p' N H H'. unfold near_code, quant1p. rewrite !q_round_clip by exact N.
  rewrite <- !clamp_clip by (unfold within_int32 in N; lia).
  set (y := (x / s + inject_Z z)%Q).
  destruct (Qfloor_bounds (y + p + 0)) as [A1 A2]. destruct (Qfloor_bounds (y + p' + 0)) as [B1 B2].
  set (a := Qfloor (y + p + 0)) in *. set (b := Qfloor (y + p' + 0)) in *.
  assert (E : Z.abs (b - a) <= 1).
  { assert (inject_Z b < inject_Z (a + 2))%Q by (rewrite inject_Z_plus; change (inject_Z 2) with 2%Q; lra).
    assert (inject_Z a < inject_Z (b + 2))%Q by (rewrite inject_Z_plus; change (inject_Z 2) with 2%Q; lra).
    rewrite <- Zlt_Qlt in *. lia. }
  unfold clamp. destruct (a <? gmin q) eqn:?, (gmax q <? a) eqn:?, (b <? gmin q) eqn:?, (gmax q <? b) eqn:?; unfold within_int32 in N; clear -E N Heqb0 Heqb1 Heqb2 Heqb3; try lia.
Qed.
Lemma near_nth a b i : Forall2 near_code a b -> near_code (nth i a 0) (nth i b 0).
Proof.
  intros F. revert i. induction F as [|x y a b H _ IH]; intros [|i]; cbn [nth]; try exact H; try apply IH; unfold near_code; cbn; lia.
Qed.
Lemma near_row a b j : Forall2 (Forall2 near_code) a b -> Forall2 near_code (nth j a []) (nth j b []).
Proof. intros F. revert j. induction F as [|x y a b H _ IH]; intros [|j]; cbn [nth]; try exact H; try apply IH; constructor. Qed.
Lemma nudged_kernel l k m m' : (0 < pn_scale k)%Q -> Forall2 (Forall2 near_code) m m' ->
  (kernel_err l (with_tensor k (PMat m')) m' <= kernel_err l k m + pn_scale k)%Q.
Proof.
  intros P F. pose proof (maxQ_nonneg (map (fun j => maxQ (map (fun i => Qabs (real_of k (nth i (nth j m []) 0%Z) - nth i (column j (kd_kernel l)) 0%Q))
     (seq 0 (length (kd_kernel l))))) (seq 0 (kd_units l)))) as K0. fold (kernel_err l k m) in K0.
  apply kernel_err_le; [lra|]. intros j i Hj Hi.
  pose proof (kernel_err_ge l k m j i Hj Hi) as E. pose proof (near_nth _ _ i (near_row _ _ j F)) as NC. unfold near_code in NC.
  set (c := nth i (nth j m []) 0) in *. set (c' := nth i (nth j m' []) 0) in *. set (w := nth i (column j (kd_kernel l)) 0%Q) in *.
  unfold real_of in *. cbn [with_tensor pn_scale pn_zp].
  setoid_replace (pn_scale k * inject_Z (c' - pn_zp k) - w)%Q
    with ((pn_scale k * inject_Z (c - pn_zp k) - w) + pn_scale k * inject_Z (c' - c))%Q by (rewrite !inject_Z_minus; ring).
  eapply Qle_trans; [apply Qabs_triangle|]. apply Qplus_le_compat; [exact E|].
  rewrite Qabs_Qmult, (Qabs_pos (pn_scale k)) by lra. rewrite <- (Qmult_1_r (pn_scale k)) at 2.
  apply Qmult_le_l; [exact P|]. change 1%Q with (inject_Z 1). rewrite Qabs_Zabs || idtac.
  change (Qabs (inject_Z (c' - c))) with (inject_Z (Z.abs (c' - c))). rewrite <- Zle_Qle. exact NC.
Qed.
Lemma nudged_bias l i k k' b' bv bv' : (0 < pn_scale i)%Q -> (0 < pn_scale k)%Q -> k' = with_tensor k b' -> Forall2 near_code bv bv' ->
  (bias_err l i k' bv' <= bias_err l i k bv + pn_scale i * pn_scale k)%Q.
Proof.
  intros Pi Pk -> F. assert (PP : (0 < pn_scale i * pn_scale k)%Q) by nra.
  pose proof (maxQ_nonneg (map (fun j => Qabs (pn_scale i * pn_scale k * inject_Z (nth j bv 0%Z) - bias_at l j)) (seq 0 (kd_units l)))) as K0.
  fold (bias_err l i k bv) in K0.
  apply bias_err_le; [lra|]. intros j Hj. pose proof (bias_err_ge l i k bv j Hj) as E. pose proof (near_nth _ _ j F) as NC. unfold near_code in NC.
  cbn [with_tensor pn_scale]. set (c := nth j bv 0) in *. set (c' := nth j bv' 0) in *. set (s := (pn_scale i * pn_scale k)%Q) in *.
  setoid_replace (s * inject_Z c' - bias_at l j)%Q with ((s * inject_Z c - bias_at l j) + s * inject_Z (c' - c))%Q by (rewrite !inject_Z_minus; ring).
  eapply Qle_trans; [apply Qabs_triangle|]. apply Qplus_le_compat; [exact E|].
  rewrite Qabs_Qmult, (Qabs_pos s) by lra. rewrite <- (Qmult_1_r s) at 2.
  apply Qmult_le_l; [exact PP|]. change 1%Q with (inject_Z 1).
  change (Qabs (inject_Z (c' - c))) with (inject_Z (Z.abs (c' - c))). rewrite <- Zle_Qle. exact NC.
Qed.
(** Whatever policy re-rounds the weights and biases, the certificate of the operator grows by at most one kernel step per input and
    one accumulator step. *)
Theorem C79_nudged_operator : forall l op op' x e i k b n, nudged_op op op' -> jo_body op = mkpb [i; k; b] [n] ->
  (0 < pn_scale i)%Q -> (0 < pn_scale k)%Q -> (0 <= e)%Q ->
  (fc_cert l op' x e <= fc_cert l op x e + pn_scale k * abssum x + inject_Z (Z.of_nat (length x)) * (e * pn_scale k) + pn_scale i * pn_scale k)%Q.
Proof.
  intros l op op' x e i k b n ND EB Pi Pk E0.
  assert (PP : (0 < pn_scale i * pn_scale k)%Q) by nra.
  assert (AX : (0 <= abssum x)%Q). { unfold abssum. clear. induction x as [|a x IH]; cbn [map sumQ fold_right]; [lra|]. fold (sumQ (map Qabs x)). pose proof (Qabs_nonneg a). lra. }
  assert (NX : (0 <= inject_Z (Z.of_nat (length x)))%Q) by (change 0%Q with (inject_Z 0); rewrite <- Zle_Qle; lia).
  assert (T1 : (0 <= pn_scale k * abssum x)%Q) by (apply Qmult_le_0_compat; lra).
  assert (T2 : (0 <= inject_Z (Z.of_nat (length x)) * (e * pn_scale k))%Q) by (apply Qmult_le_0_compat; [exact NX|apply Qmult_le_0_compat; lra]).
  destruct ND as [-> | (nm & i0 & k0 & b0 & n0 & m & m' & bv & bv' & -> & TK & TB & -> & F1 & F2)]; [lra|].
  cbn [jo_body] in EB. assert (i0 = i) by congruence. assert (k0 = k) by congruence. assert (b0 = b) by congruence. assert (n0 = n) by congruence. subst. clear EB.
  unfold fc_cert. cbn [jo_body pb_in pb_out]. rewrite TK, TB. change (pn_tensor (with_tensor k (PMat m'))) with (PMat m'). change (pn_tensor (with_tensor b (PVec bv'))) with (PVec bv').
  change (pn_scale (with_tensor k (PMat m'))) with (pn_scale k). cbv beta iota zeta.
  pose proof (nudged_kernel l k m m' Pk F1) as HK. pose proof (nudged_bias l i k _ (PMat m') bv bv' Pi Pk eq_refl F2) as HB.
  set (ek := kernel_err l k m) in *. set (ek' := kernel_err l _ m') in *. set (eb := bias_err l i k bv) in *. set (eb' := bias_err l i _ bv') in *.
  set (N := inject_Z (Z.of_nat (length x))) in *. set (A := abssum x) in *. set (s := pn_scale k) in *.
  assert (Q1 : (ek' * A <= (ek + s) * A)%Q) by (apply Qmult_le_compat_r; assumption).
  assert (Q2 : (N * (e * ek') <= N * (e * (ek + s)))%Q).
  { rewrite !(Qmult_comm N), !(Qmult_comm e). apply Qmult_le_compat_r; [apply Qmult_le_compat_r; assumption|exact NX]. }
  lra.
Qed.
Lemma nudged_lengths m m' : Forall2 (Forall2 near_code) m m' -> length m' = length m /\ (forall n, (forall r, In r m -> length r = n) -> forall r, In r m' -> length r = n).
Proof.
  induction 1 as [|r r' m m' H _ [IH1 IH2]]; split; cbn [length]; try congruence; [intros n _ r []|]. intros n Hn r0 [<- |Hr].
  - apply F2_length in H. rewrite <- H. apply Hn. now left.
  - apply (IH2 n); [intros; apply Hn; now right|exact Hr].
Qed.
Lemma nudged_implements ls inp ops out : implements ls inp ops out -> forall n, shaped n ls -> (exists qi, parse_dtype (pn_dtype inp) = Ok qi) ->
  forall ops', Forall2 nudged_op ops ops' -> Forall acc_fits ops' -> implements ls inp ops' out.
Proof.
  assert (FF' : forall l i k b n m bv m' bv' N nm, layer_shaped N l -> fc_fits l i k b n m bv -> (exists qi, parse_dtype (pn_dtype i) = Ok qi) ->
     Forall2 (Forall2 near_code) m m' -> Forall2 near_code bv bv' ->
     acc_fits (mkjop (str "FULLY_CONNECTED") nm (mkpb [i; with_tensor k (PMat m'); with_tensor b (PVec bv')] [n])) ->
     fc_fits l i (with_tensor k (PMat m')) (with_tensor b (PVec bv')) n m' bv').
  { intros l i k b n m bv m' bv' N nm (Hn & Hu & LK & _) [A1 A2 A3 A4 A5 A6 A7 A8 A9] (qi & PI) F1 F2 AF.
    destruct (nudged_lengths m m' F1) as [LE LR].
    destruct (AF i (with_tensor k (PMat m')) (with_tensor b (PVec bv')) n m' bv' qi eq_refl eq_refl eq_refl PI) as (K & K1 & K2).
    assert (WM : width m' = length (kd_kernel l)).
    { unfold width. destruct m' as [|r m']; [cbn in LE; lia|]. apply (LR _ A4). now left. }
    constructor; [reflexivity|reflexivity|lia|apply LR, A4|apply F2_length in F2; lia|exact A6|exact A7|exact A8|].
    exists qi, K. split; [exact PI|]. split; [exact K1|]. rewrite <- WM. exact K2. }
  induction 1 as [inp|l ls inp k b n m bv name ops out T FF IM IH|l ls inp k b n m bv name t name' o ops out T FF TO UO TOK IM IH]; intros N Sh UI ops' ND AF.
  - inversion ND; subst. constructor.
  - apply shaped_layer in Sh as (SL & SR & Hn). inversion ND as [|? op' ? rest' D1 D2]; subst. inversion AF as [|? ? AF1 AF2]; subst.
    assert (UO : exists qn, parse_dtype (pn_dtype n) = Ok qn) by (destruct (ff_out _ _ _ _ _ _ _ FF) as (qn & P & _); eauto).
    pose proof (IH _ SR UO rest' D2 AF2) as IM'.
    destruct D1 as [-> | (nm & i0 & k0 & b0 & n0 & m0 & m' & bv0 & bv' & EO & TK & TB & -> & F1 & F2)].
    + econstructor; eassumption.
    + assert (nm = name) by congruence. assert (i0 = inp) by congruence. assert (k0 = k) by congruence. assert (b0 = b) by congruence. assert (n0 = n) by congruence. subst. clear EO.
      assert (m0 = m) by (pose proof (ff_kernel _ _ _ _ _ _ _ FF); congruence). assert (bv0 = bv) by (pose proof (ff_bias _ _ _ _ _ _ _ FF); congruence). subst.
      eapply im_fc; [exact T|eapply FF'; eassumption|exact IM'].
  - apply shaped_layer in Sh as (SL & SR & Hn). inversion ND as [|? op' ? rest' D1 D2]; subst. inversion AF as [|? ? AF1 AF2]; subst.
    inversion D2 as [|? op2' ? rest2' D3 D4]; subst. inversion AF2 as [|? ? _ AF3]; subst.
    assert (UO' : exists qn, parse_dtype (pn_dtype o) = Ok qn) by (destruct UO as (qn & P & _); eauto).
    pose proof (IH _ SR UO' rest2' D4 AF3) as IM'.
    assert (op2' = mkjop t name' (mkpb [n] [o])) as ->.
    { destruct D3 as [-> | (nm & i0 & k0 & b0 & n0 & m0 & m' & bv0 & bv' & EO & _)]; [reflexivity|]. congruence. }
    destruct D1 as [-> | (nm & i0 & k0 & b0 & n0 & m0 & m' & bv0 & bv' & EO & TK & TB & -> & F1 & F2)].
    + econstructor; eassumption.
    + assert (nm = name) by congruence. assert (i0 = inp) by congruence. assert (k0 = k) by congruence. assert (b0 = b) by congruence. assert (n0 = n) by congruence. subst. clear EO.
      assert (m0 = m) by (pose proof (ff_kernel _ _ _ _ _ _ _ FF); congruence). assert (bv0 = bv) by (pose proof (ff_bias _ _ _ _ _ _ _ FF); congruence). subst.
      eapply im_table; [exact T|eapply FF'; eassumption|exact TO|exact UO|exact TOK|exact IM'].
Qed.
(** Re-rounding the weights and biases of a file by any policies leaves a file the certificate applies to (if its accumulators still fit). *)
Theorem C79_nudged_file : forall ls n j qop ops ops' out, dense_file ls n j qop ops out -> Forall2 nudged_op ops ops' -> Forall acc_fits ops' ->
  dense_file ls n (with_graph j (qop :: ops' ++ [mkjop (str "DEQUANTIZE") (str "DEQUANTIZE") (mkpb [out] [])])) qop ops' out.
Proof.
  intros ls n j qop ops ops' out [Hn Sh EE EG EI EO (nd & UN & EQ & IM)] ND AF.
  constructor; [exact Hn|exact Sh|exact EE|reflexivity|exact EI|exact EO|].
  exists nd. split; [exact UN|]. split; [exact EQ|]. eapply nudged_implements; [exact IM|exact Sh| |exact ND|exact AF].
  destruct UN as (q & P & _). eauto.
Qed.

(** *** Examples: the ReLU network of C65's example, and the same file with every weight code lowered by one and every bias raised by one *)
Definition nudge (op : jop pbody) : jop pbody :=
  match op with
  | mkjop t name (mkpb [i; k; b] [n]) =>
      match pn_tensor k, pn_tensor b with
      | PMat m, PVec bv =>
          if chars_eqb t (str "FULLY_CONNECTED")
          then mkjop (str "FULLY_CONNECTED") name (mkpb [i; with_tensor k (PMat (map (map (fun c => if 0 <? c then c - 1 else c)) m)); with_tensor b (PVec (map Z.succ bv))] [n])
          else op
      | _, _ => op
      end
  | _ => op
  end.
Lemma nudge_ok op : nudged_op op (nudge op).
Proof.
  destruct op as [t name [[|i [|k [|b [|]]]] [|n [|]]]]; try (left; reflexivity).
  unfold nudge. destruct (pn_tensor k) as [| |m] eqn:TK; try (left; reflexivity). destruct (pn_tensor b) as [|bv|] eqn:TB; try (left; reflexivity).
  destruct (chars_eqb t (str "FULLY_CONNECTED")) eqn:E; [|left; reflexivity]. apply chars_eqb_eq in E. subst t.
  right. exists name, i, k, b, n, m. eexists _, bv, _. split; [reflexivity|]. split; [exact TK|]. split; [exact TB|]. split; [reflexivity|]. split.
  - clear. induction m as [|r m IH]; cbn [map]; constructor; [|exact IH]. clear IH. induction r as [|c r IH]; cbn [map]; constructor; [|exact IH].
    unfold near_code. destruct (0 <? c); lia.
  - clear. induction bv as [|c r IH]; cbn [map]; constructor; [|exact IH]. unfold near_code. lia.
Qed.
Definition acc_fitsb (op : jop pbody) : bool :=
  match pb_in (jo_body op), pb_out (jo_body op) with
  | [i; k; b], [n] =>
      match pn_tensor k, pn_tensor b, parse_dtype (pn_dtype i) with
      | PMat m, PVec bv, Ok di =>
          let K := fold_right Z.max 0 (map (fun c => Z.abs (c - pn_zp k)) (concat m)) in
          forallb (fun v => Z.of_nat (width m) * ((gmax di - gmin di) * K) + Z.abs v <=? 2 ^ 31) bv
      | _, _, _ => true
      end
  | _, _ => true
  end.
Lemma acc_fitsb_sound op : acc_fitsb op = true -> acc_fits op.
Proof.
  unfold acc_fitsb, acc_fits. intros H i k b n m bv di EB TK TB PI. rewrite EB in H. cbn [pb_in pb_out] in H. rewrite TK, TB, PI in H.
  set (K := fold_right Z.max 0 (map (fun c => Z.abs (c - pn_zp k)) (concat m))) in *. exists K. split.
  - intros r c Hr Hc. assert (HI : In c (concat m)) by (apply in_concat; exists r; split; assumption).
    unfold K. clear -HI. induction (concat m) as [|a l IH]; [destruct HI|]. cbn [map fold_right]. destruct HI as [-> |HI]; [lia|]. specialize (IH HI). lia.
  - intros v Hv. rewrite forallb_forall in H. specialize (H v Hv). apply Z.leb_le in H. exact H.
Qed.
Definition idf (_ : kdense) : Q := 1%Q.
Definition idd (_ : kdense) : Q := 0%Q.
Example C79_example : exists j qop ops out, pipe_build cfg_default rx_net ex_rows = Ok j /\ dense_file (denses rx_net) 2 j qop ops out /\
  map nudge ops <> ops /\
  dense_file (denses rx_net) 2 (with_graph j (qop :: map nudge ops ++ [mkjop (str "DEQUANTIZE") (str "DEQUANTIZE") (mkpb [out] [])])) qop (map nudge ops) out /\
  (cert idf idd (denses rx_net) ops [1; -1]%Q (input_err qop [1; -1]%Q) < 6 # 100)%Q /\
  (cert idf idd (denses rx_net) (map nudge ops) [1; -1]%Q (input_err qop [1; -1]%Q) < 12 # 100)%Q.
Proof.
  destruct C65_example as (j & PB & OK & _). 
  destruct (C79_builder_files _ _ _ _ _ C65_example_ready PB OK) as (qop & ops & out & DF).
  assert (K : match pipe_build cfg_default rx_net ex_rows with
    | Ok j => match jt_graph j with
              | q0 :: rest => let os := removelast rest in forallb acc_fitsb (map nudge os) && (0 <? Z.of_nat (length os)) &&
                   negb (forallb (fun op => match pb_in (jo_body op), pb_in (jo_body (nudge op)) with
                                            | [_; _; b], [_; _; b'] => match pn_tensor b, pn_tensor b' with PVec (v :: _), PVec (v' :: _) => v =? v' | _, _ => true end
                                            | _, _ => true end) os) &&
                   negb (Qle_bool (6 # 100) (cert idf idd (denses rx_net) os [1; -1]%Q (input_err q0 [1; -1]%Q))) &&
                   negb (Qle_bool (12 # 100) (cert idf idd (denses rx_net) (map nudge os) [1; -1]%Q (input_err q0 [1; -1]%Q)))
              | [] => false end
    | _ => false end = true) by (vm_compute; reflexivity).
  rewrite PB in K. rewrite (df_graph _ _ _ _ _ _ DF) in K. cbv zeta in K. rewrite removelast_last in K.
  apply andb_true_iff in K as [K K5]. apply andb_true_iff in K as [K K4]. apply andb_true_iff in K as [K K3]. apply andb_true_iff in K as [K1 K2].
  exists j, qop, ops, out. split; [exact PB|]. split; [exact DF|]. split.
  { intros E. apply negb_true_iff in K3. rewrite <- not_true_iff_false in K3. apply K3. apply forallb_forall. intros op Hop.
    assert (EN : nudge op = op).
    { clear -E Hop. induction ops as [|o r IH]; [destruct Hop|]. cbn [map] in E. assert (E1 : nudge o = o) by congruence. assert (E2 : map nudge r = r) by congruence.
      destruct Hop as [<- |Hop]; [exact E1|exact (IH E2 Hop)]. }
    rewrite EN. destruct (pb_in (jo_body op)) as [|? [|? [|b [|]]]]; try reflexivity. destruct (pn_tensor b) as [|[|v ?]|]; try reflexivity. apply Z.eqb_refl. }
  split.
  { apply (C79_nudged_file _ _ _ _ ops); [exact DF| |].
    - clear. induction ops; cbn [map]; constructor; [apply nudge_ok|assumption].
    - apply Forall_forall. intros op Hop. rewrite forallb_forall in K1. apply acc_fitsb_sound, K1, Hop. }
  split; apply Qnot_le_lt; intros C; apply Qle_bool_iff in C; [rewrite C in K4|rewrite C in K5]; discriminate.
Qed.
