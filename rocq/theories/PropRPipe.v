(** Property C65: the quantize / export / load / infer pipeline on dense networks with ReLU layers, for every input. *)
From Verif Require Import Base BaseProofs DtypeModel DtypeProofs QuantModel QuantProofs LutModel LutProofs FcModel FcProofs FcLayer
  EngineModel EngineProofs DistModel DistProofs BuildModel PipeModel PropCore PropFc PropEngine PropDist PropNodeLut PropRelu PipeSpec PipeProofs
  PropPipe RPipeSpec RPipeProofs.
From Coq Require Import Lqa Qminmax.
Open Scope Z_scope.
Open Scope list_scope.

Record rready (c : qcfg) (ls : list plyr) (data : list (list Q)) (n : nat) : Prop := {
  rr_in : exists q, parse_dtype (c_quantize c) = Ok q /\ narrow q;
  rr_pos : (0 < n)%nat;
  rr_shape : shaped n (denses ls);
  rr_cfg : Forall (good_rlayer c) (denses ls);
  rr_rows : forall r, In r data -> length r = n;
  rr_data : data <> [] }.

(** The exported file loads, and for EVERY batch of inputs of the right length (no condition on their values) every output of the
    integer network is within [rerr] of the float network with its ReLU layers. *)
Theorem C65_network_error : forall c ls data n L D j, rready c ls data n ->
  (forall l, In l (denses ls) -> table_act l -> lipschitz L D l) ->
  pipe_build c ls data = Ok j -> Forall op_ok (jt_graph j) ->
  exists net qop rest, pipe_load j = Ok net /\ jt_graph j = qop :: rest /\
  forall batch, batch <> [] -> (forall x, In x batch -> length x = n) ->
  exists Y, pipe_infer net batch = Ok (VF Y) /\
    Forall2 (fun x y => within (rerr c L D (denses ls) rest x (input_err qop x)) y (net_out (denses ls) x)) batch Y.
Proof.
  intros c ls data n L D j [[q [P N]] Hn Sh G LD NE] LIP PB OK.
  destruct (pipe_input_ok _ q data n P N NE Hn LD) as (nd & EI & NI & FN).
  unfold pipe_build in PB. rewrite EI in PB. cbn [rbind fst snd] in PB.
  destruct (pipe_layers c ls nd data) as [[ops out]|] eqn:PL; [|discriminate]. cbn [rbind fst snd] in PB.
  match type of PB with Ok ?a = Ok j => assert (EJ : j = a) by congruence end. clear PB.
  set (qop := mkjop (str "QUANTIZE") (str "QUANTIZE") (mkpb [] [nd])) in *.
  set (dop := mkjop (str "DEQUANTIZE") (str "DEQUANTIZE") (mkpb [out] [])) in *.
  rewrite EJ in OK. cbn [jt_graph] in OK. inversion OK as [|? ? _ OK']; subst. apply Forall_app_inv in OK' as [OK1 _].
  destruct (rlayers_ok c ls n nd data q ops out Sh G NI LD PL OK1) as (qo & NO & CNT & HL).
  destruct (HL L D LIP) as (lys & gs & B1 & B2 & B3). clear HL.
  cbn [jt_graph].
  (* the first and the last layer of the engine *)
  assert (BQ : exists lq, build_layer ie_builders qop = Ok lq /\ forall b, lq (VF b) = Ok (VI (map (map (quant1 q (pn_zp nd) (pn_scale nd))) b))).
  { eexists. split.
    - unfold build_layer, qop. cbn [jo_type jo_body].
      assert (build_layer_kind (str "QUANTIZE") = Ok KQuantize) as -> by (vm_compute; reflexivity).
      cbn [rbind ie_builders b_tflite]. unfold ie_quantize. cbn [pb_out]. change (py_index [nd] 0) with (Ok nd). cbn [rbind].
      rewrite (no_dtype _ _ NI). cbn [rbind]. reflexivity.
    - intros b. reflexivity. }
  assert (BD : exists ld, build_layer ie_builders dop = Ok ld /\ forall m, ld (VI m) = Ok (VF (map (map (dequant1 (pn_zp out) (pn_scale out))) m))).
  { eexists. split.
    - unfold build_layer, dop. cbn [jo_type jo_body].
      assert (build_layer_kind (str "DEQUANTIZE") = Ok KDequantize) as -> by (vm_compute; reflexivity).
      cbn [rbind ie_builders b_tflite]. unfold ie_dequantize. cbn [pb_in]. change (py_index [out] 0) with (Ok out). cbn [rbind].
      rewrite (no_dtype _ _ NO). cbn [rbind]. reflexivity.
    - intros b. reflexivity. }
  destruct BQ as (lq & BQ1 & BQ2), BD as (ld & BD1 & BD2).
  assert (MA : mapM (build_layer ie_builders) (qop :: ops ++ [dop]) = Ok (lq :: lys ++ [ld])).
  { cbn [mapM]. rewrite BQ1. cbn [rbind].
    rewrite (mapM_app_ok _ ops [dop] lys [ld] B1); [reflexivity|]. cbn [mapM]. rewrite BD1. reflexivity. }
  exists (mkseq true None None (lq :: lys ++ [ld]) []), qop, (ops ++ [dop]). split.
  { unfold pipe_load, seq_init. cbn [jt_input jt_output jt_graph jt_engine].
    change (py_index [Some (mkjnode None None)] 0) with (Ok (Some (mkjnode None None))). cbn [rbind].
    change (py_index (qop :: ops ++ [dop]) 0) with (Ok qop). cbn [rbind].
    assert (contains (chars_of "QUANT") (upper (jo_name qop)) = true) as -> by (vm_compute; reflexivity).
    assert (get_engine ie_builders (str "tflite") = Ok (build_layer ie_builders)) as -> by reflexivity.
    cbn [rbind]. rewrite MA. reflexivity. }
  split; [reflexivity|].
  intros batch BN HB.
  set (bq := map (map (quant1 q (pn_zp nd) (pn_scale nd))) batch).
  assert (CH : exists yq, Forall2 (chain gs) bq yq /\
    Forall2 (fun x y => near out qo (rerr c L D (denses ls) ops x (input_err qop x)) (net_out (denses ls) x) y) batch yq).
  { unfold bq. clear BN bq. induction batch as [|x batch IH].
    - exists []. split; constructor.
    - destruct IH as (yq & I1 & I2). { intros; apply HB; now right. }
      pose proof (HB x ltac:(now left)) as Lx.
      destruct (B3 x (map (quant1 q (pn_zp nd) (pn_scale nd)) x) (input_err qop x)) as (y & Y1 & Y2); [|exact Lx|].
      + apply (rinput_near nd q x NI).
      + exists (y :: yq). split; constructor; assumption. }
  destruct CH as (yq & C1 & C2).
  assert (BQN : bq <> []) by (unfold bq; destruct batch; [congruence|discriminate]).
  destruct (chain_runs lys gs B2 bq yq BQN C1) as (t & R).
  assert (RA : exists t', runs (lq :: lys ++ [ld]) (VF batch) t' (VF (map (map (dequant1 (pn_zp out) (pn_scale out))) yq))).
  { assert (X : exists t', runs (lys ++ [ld]) (VI bq) t' (VF (map (map (dequant1 (pn_zp out) (pn_scale out))) yq))).
    { clear -R BD2. remember (VI bq) as a eqn:Ea. remember (VI yq) as b eqn:Eb. clear Ea. induction R as [x|l lys x y t z E _ IH].
      - subst. eexists. cbn [app]. econstructor; [apply BD2|constructor].
      - destruct (IH Eb) as [t' X]. eexists. cbn [app]. econstructor; [exact E|exact X]. }
    destruct X as [t' X]. eexists. econstructor; [apply BQ2|exact X]. }
  destruct RA as (t' & RA).
  exists (map (map (dequant1 (pn_zp out) (pn_scale out))) yq). split.
  { unfold pipe_infer.
    rewrite (proj1 (C20_infer_composes _ no_toi8 (mkseq true None None (lq :: lys ++ [ld]) []) (VF batch) t' _ eq_refl) RA). reflexivity. }
  assert (EB : forall ls' g x e, length g = op_count ls' -> rerr c L D ls' (g ++ [dop]) x e = rerr c L D ls' g x e).
  { clear. induction ls' as [|l ls' IH]; intros g x e Lg.
    - destruct g; [reflexivity|discriminate].
    - unfold op_count in Lg. cbn [fold_right] in Lg. fold (op_count ls') in Lg.
      destruct g as [|o g]; [destruct (is_table l); discriminate|]. cbn [app rerr].
      destruct (is_table l).
      + destruct g as [|a g]; [discriminate|]. cbn [app]. apply IH. cbn in Lg. lia.
      + apply IH. cbn in Lg. lia. }
  clear -C2 NO EB CNT. induction C2 as [|x y batch yq H _ IH]; cbn [map]; constructor; [|exact IH].
  rewrite EB by exact CNT. destruct H as [H1 H2 H3]. split; [now rewrite map_length|].
  intros i Hi. set (h := dequant1 (pn_zp out) (pn_scale out)).
  rewrite (nth_indep (map h y) 0%Q (h 0)) by (rewrite map_length, H1; exact Hi). rewrite map_nth. unfold h.
  pose proof (no_narrow _ _ NO) as (N1 & N2 & N3). pose proof (no_zp _ _ NO) as NZ.
  assert (IY : in_dtype qo (nth i y 0)) by (apply H2, nth_In; lia).
  rewrite (dequant1_nowrap qo) by (try exact N1; try exact IY; unfold zp_nowrap, in_dtype, within_int32 in *; lia).
  rewrite (Qmult_comm (inject_Z _)). apply H3, Hi.
Qed.

(** ** Calibration of the ReLU layers *)
(** the limits a node saturates at, from what it reads back *)
Lemma sat_limits q s z lo hi : narrow q -> (0 < s)%Q -> in_dtype q z -> (lo <= hi)%Q ->
  (forall v, (Qabs (readback q s z v - limit lo hi v) <= s * (1#2))%Q) ->
  (Qabs (s * inject_Z (gmin q - z) - lo) <= s * (1#2))%Q /\ (Qabs (s * inject_Z (gmax q - z) - hi) <= s * (1#2))%Q.
Proof.
  intros (N1 & N2 & N3) P Hz L H.
  assert (ZN : zp_nowrap q z) by (unfold zp_nowrap, in_dtype in *; lia).
  split.
  - set (v := (Qmin lo (s * inject_Z (gmin q - z)) - s)%Q).
    pose proof (Q.le_min_l lo (s * inject_Z (gmin q - z))) as A. pose proof (Q.le_min_r lo (s * inject_Z (gmin q - z))) as B.
    specialize (H v). unfold limit in H. destruct (Qlt_le_dec v lo) as [C|C]; [|unfold v in C; lra].
    assert (E : quant1 q z s v = gmin q).
    { apply quant1_saturate_low; [exact N1|]. unfold v. rewrite inject_Z_minus in *.
      assert (X : ((Qmin lo (s * (inject_Z (gmin q) - inject_Z z)) - s) / s <= (s * (inject_Z (gmin q) - inject_Z z) - s) / s)%Q).
      { apply Qmult_le_compat_r; [lra|]. apply Qlt_le_weak, Qinv_lt_0_compat, P. }
      assert (Y : ((s * (inject_Z (gmin q) - inject_Z z) - s) / s == inject_Z (gmin q) - inject_Z z - 1)%Q) by (field; lra).
      lra. }
    unfold readback in H. rewrite E, (dequant1_nowrap q) in H by (try assumption; unfold in_dt; lia).
    rewrite (Qmult_comm s). exact H.
  - set (v := (Qmax hi (s * inject_Z (gmax q - z)) + s)%Q).
    pose proof (Q.le_max_l hi (s * inject_Z (gmax q - z))) as A. pose proof (Q.le_max_r hi (s * inject_Z (gmax q - z))) as B.
    specialize (H v). unfold limit in H. destruct (Qlt_le_dec v lo) as [C|C]; [unfold v in C; lra|].
    destruct (Qlt_le_dec hi v) as [C'|C']; [|unfold v in C'; lra].
    assert (E : quant1 q z s v = gmax q).
    { apply quant1_saturate_high; [exact N1|]. unfold v. rewrite inject_Z_minus in *.
      assert (X : ((s * (inject_Z (gmax q) - inject_Z z) + s) / s <= (Qmax hi (s * (inject_Z (gmax q) - inject_Z z)) + s) / s)%Q).
      { apply Qmult_le_compat_r; [lra|]. apply Qlt_le_weak, Qinv_lt_0_compat, P. }
      assert (Y : ((s * (inject_Z (gmax q) - inject_Z z) + s) / s == inject_Z (gmax q) - inject_Z z + 1)%Q) by (field; lra).
      lra. }
    unfold readback in H. rewrite E, (dequant1_nowrap q) in H by (try assumption; unfold in_dt; lia).
    rewrite (Qmult_comm s). exact H.
Qed.
Lemma relu_cases l : relu_act l -> (is_relu l = true /\ fused_of (kd_act l) = FRelu) \/
  (is_relu l = false /\ is_relu6 l = true /\ fused_of (kd_act l) = FRelu6).
Proof. unfold is_relu, is_relu6, fused_of. intros [-> | ->]; [left|right]; repeat split. Qed.

Lemma relu_node q act data out (A := concat out) shape_data : narrow q -> (exists t, parse_dtype t = Ok q) ->
  shape_data = width data -> forall x y, In x A -> In y A -> (forall v, In v A -> x <= v <= y)%Q -> (x <= 0)%Q -> (0 < y)%Q ->
  forall f, fused_of act = f -> (f = FRelu \/ f = FRelu6) ->
  (y - x <= 512 * (match f with FRelu6 => 6 | _ => y end))%Q ->
  exists n, quant_bias_add q act data out = Ok n /\ node_ok n q /\
    let b := ((y - x) / 512)%Q in
    (- bottom n <= b + pn_scale n * (1#2))%Q /\
    (f = FRelu6 -> (top n - 6 <= b + pn_scale n * (1#2))%Q) /\
    (f = FRelu -> forall v, (v <= y)%Q -> (v - top n <= pn_scale n * (1#2))%Q) /\
    (f = FRelu6 -> forall v, (v <= y)%Q -> (Qmin v 6 - top n <= b + pn_scale n * (1#2))%Q).
Proof.
  intros N [t Ht] _ x y Hx Hy XY X0 Y0 f Hf HF HB.
  assert (PQ : parse_dtype (grepr q) = Ok q) by (apply (C06_str_roundtrip _ _ Ht)).
  assert (Y : forall v, In v A -> (v <= y)%Q) by (intros v Hv; apply XY, Hv).
  assert (DIV : forall b mn, (b * inject_Z (Z.of_nat 512) == y - mn)%Q -> (mn == x)%Q -> (b == (y - x) / 512)%Q).
  { intros b mn E1 E2. change (inject_Z (Z.of_nat 512)) with 512%Q in E1.
    assert (E3 : ((y - x) / 512 == (y - x) * (1#512))%Q) by field. rewrite E3. lra. }
  destruct HF as [-> | ->].
  - destruct (relu_sat A 512 q x y N ltac:(lia) Hx Hy X0 Y0 Y) as (d & b & d' & s & z & mn & lo & hi & E & BS & (u & U1 & U2) & MN & BW & H).
    assert (EX : (mn == x)%Q) by (pose proof (MN x Hx); pose proof (XY u U1); lra).
    pose proof (DIV b mn BW EX) as EB. assert (E3 : ((y - x) / 512 == (y - x) * (1#512))%Q) by field.
    destruct (H ltac:(lra)) as (FT & QE & SP & Hz & LB & HX & SAT).
    destruct (sat_limits q s z lo hi N SP Hz ltac:(lra) SAT) as [S1 S2]. apply Qabs_Qle_condition in S1, S2.
    exists (mkpn s z (grepr q) [width data] PNone None). split.
    { unfold quant_bias_add, calibrate. fold A. rewrite E. cbn [rbind]. rewrite Hf, FT. cbn [rbind]. rewrite QE. reflexivity. }
    split; [constructor; assumption|]. cbv zeta.
    rewrite (bottom_eq _ q) by exact PQ. rewrite (top_eq _ q) by exact PQ. cbn [pn_scale pn_zp].
    split; [lra|]. split; [discriminate|]. split; [|discriminate]. intros _ v Hv. lra.
  - destruct (relu6_sat A 512 q x y N ltac:(lia) Hx Hy X0 Y0 Y) as (d & b & d' & s & z & mn & lo & hi & E & BS & (u & U1 & U2) & MN & BW & H).
    assert (EX : (mn == x)%Q) by (pose proof (MN x Hx); pose proof (XY u U1); lra).
    pose proof (DIV b mn BW EX) as EB. assert (E3 : ((y - x) / 512 == (y - x) * (1#512))%Q) by field.
    destruct (H ltac:(lra)) as (FT & QE & SP & Hz & LB & HX & HX2 & SAT).
    destruct (sat_limits q s z lo hi N SP Hz ltac:(lra) SAT) as [S1 S2]. apply Qabs_Qle_condition in S1, S2.
    exists (mkpn s z (grepr q) [width data] PNone None). split.
    { unfold quant_bias_add, calibrate. fold A. rewrite E. cbn [rbind]. rewrite Hf, FT. cbn [rbind]. rewrite QE. reflexivity. }
    split; [constructor; assumption|]. cbv zeta.
    rewrite (bottom_eq _ q) by exact PQ. rewrite (top_eq _ q) by exact PQ. cbn [pn_scale pn_zp].
    split; [lra|]. split; [intros _; lra|]. split; [discriminate|]. intros _ v Hv.
    pose proof (Q.min_le_compat_r v y 6 Hv) as M. lra.
Qed.

(** One ReLU layer: quantization succeeds, the pre-activations are what is handed on to the next layer, the values the node can hold
    reach at most a bin and half a step below 0, and every activation the calibration has seen fits (ReLU6: up to a bin). *)
Theorem C65_relu_layer : forall c l inp data d qk q qb n x y,
  layer_cfg c (kd_name l) = CDense d -> good_cfg d qk q qb -> relu_act l -> shaped n [l] -> (forall r, In r data -> length r = n) ->
  In x (concat (map (affine l) data)) -> In y (concat (map (affine l) data)) ->
  (forall v, In v (concat (map (affine l) data)) -> x <= v <= y)%Q -> (x <= 0)%Q -> (0 < y)%Q ->
  (y - x <= 512 * (if is_relu6 l then 6 else y))%Q ->
  exists op o, pipe_dense (CDense d) l inp data = Ok ([op], o, map (affine l) data) /\ out_node op = o /\ node_sane o /\
    (leak l o <= (y - x) / 512 + pn_scale o * (1#2))%Q /\
    forall v, (v <= y)%Q -> (excess o [act_fn l v] <= (if is_relu6 l then (y - x) / 512 else 0) + pn_scale o * (1#2))%Q.
Proof.
  intros c l inp data d qk q qb n x y EC G HA Sh LD Hx Hy XY X0 Y0 HB.
  apply shaped_layer in Sh as (SL & _ & _). destruct G as [Gopt Gk Ga Gba Gb Nk N Nb Gpos Gsym].
  assert (PA : map (preact l) data = map (affine l) data).
  { apply map_ext_in. intros r Hr. apply (preact_affine n); [exact SL|apply LD, Hr]. }
  destruct (quant_kernel_ok qk (d_sym d) (kd_w l) Nk Gpos Gsym (kd_w_ne n l SL)) as (k & sk & m & EK & Ek & Psk & FM).
  destruct (relu_facts l HA) as [T1 T2].
  assert (HN : exists o, quant_bias_add q (kd_act l) data (map (affine l) data) = Ok o /\ node_ok o q /\
    (leak l o <= (y - x) / 512 + pn_scale o * (1#2))%Q /\
    forall v, (v <= y)%Q -> (act_fn l v - top o <= (if is_relu6 l then (y - x) / 512 else 0) + pn_scale o * (1#2))%Q).
  { destruct (relu_cases l HA) as [[R1 R2]|(R1 & R6 & R2)].
    - assert (R6 : is_relu6 l = false).
      { unfold is_relu6. unfold is_relu in R1. apply chars_eqb_eq in R1. rewrite R1. reflexivity. }
      rewrite R6 in HB.
      destruct (relu_node q (kd_act l) data (map (affine l) data) (width data) N (ex_intro _ _ Gba) eq_refl x y Hx Hy XY X0 Y0 FRelu R2 (or_introl eq_refl) HB)
        as (o & E & NO & B1 & _ & B3 & _). exists o. split; [exact E|]. split; [exact NO|].
      unfold leak, act_fn. rewrite T1, R1, R6. split; [exact B1|]. intros v Hv. unfold relu.
      pose proof (no_pos _ _ NO) as SP.
      destruct (Q.max_spec v 0) as [[? ->]|[? ->]]; [|specialize (B3 eq_refl v Hv); lra].
      specialize (B3 eq_refl y ltac:(lra)). lra.
    - rewrite R6 in HB |- *.
      destruct (relu_node q (kd_act l) data (map (affine l) data) (width data) N (ex_intro _ _ Gba) eq_refl x y Hx Hy XY X0 Y0 FRelu6 R2 (or_intror eq_refl) HB)
        as (o & E & NO & B1 & B2 & _ & B4). exists o. split; [exact E|]. split; [exact NO|].
      unfold leak, act_fn. rewrite T1, R1, R6. split; [apply Q.max_lub; [exact B1|exact (B2 eq_refl)]|]. intros v Hv. unfold relu6.
      apply Qle_trans with (Qmin y 6 - top o)%Q; [|apply (B4 eq_refl); lra].
      assert (Qmin (Qmax v 0) 6 <= Qmin y 6)%Q; [|lra]. apply Q.min_le_compat_r. apply Q.max_lub; lra. }
  destruct HN as (o & E & NO & LK & EXC).
  eexists _, o. split.
  { unfold pipe_dense. rewrite Gk, Ga, Gba, Gb. cbn [rbind]. rewrite EK. cbn [rbind]. rewrite PA, E, Gopt. cbn [rbind].
    unfold quant_activation. rewrite T2. cbn [rbind]. reflexivity. }
  split; [reflexivity|]. destruct NO as [ND NN NP NZ]. split.
  { split; [exact NP|]. intros q' Hq'. assert (q' = q) by congruence. subst. exact NZ. }
  split; [exact LK|]. intros v Hv. unfold excess. cbn [map fold_right].
  assert (BX : (0 <= (if is_relu6 l then (y - x) / 512 else 0))%Q).
  { destruct (is_relu6 l); [|lra]. assert (E3 : ((y - x) / 512 == (y - x) * (1#512))%Q) by field. rewrite E3. lra. }
  assert (A0 : (0 <= act_fn l v)%Q).
  { unfold act_fn. rewrite T1. destruct (relu_cases l HA) as [[R1 _]|(R1 & R6 & _)]; rewrite R1.
    - apply Q.le_max_r.
    - rewrite R6. unfold relu6. apply Q.min_glb; [apply Q.le_max_r|discriminate]. }
  assert (BT : (bottom o <= 0)%Q).
  { rewrite (bottom_eq o q ND). setoid_replace 0%Q with (pn_scale o * inject_Z 0)%Q by (change (inject_Z 0) with 0%Q; ring).
    apply Qmult_le_l; [exact NP|]. apply (proj1 (Zle_inj _ _)). unfold in_dtype in NZ. lia. }
  apply Q.max_lub; [apply Q.max_lub; [apply EXC, Hv|lra]|lra].
Qed.

(** Quantizing the whole network succeeds, and every node the operators write is sane, when its ReLU layers can be calibrated. *)
Lemma rlayers_total c : forall ls n inp data,
  shaped n (denses ls) -> Forall (good_rlayer c) (denses ls) -> data <> [] -> (forall r, In r data -> length r = n) ->
  relu_calibrated (denses ls) data ->
  exists ops out, pipe_layers c ls inp data = Ok (ops, out) /\ forall op, In op ops -> forall o, In o (pb_out (jo_body op)) -> node_sane o.
Proof.
  induction ls as [|p ls IH]; intros n inp data Sh G NE LD RC.
  - exists [], inp. split; [reflexivity|]. intros op [].
  - destruct p as [l|]; [|exact (IH n inp data Sh G NE LD RC)]. cbn [denses] in Sh, G, RC.
    pose proof Sh as SH. apply shaped_layer in Sh as (SL & SR & _). destruct RC as [RC1 RC2].
    inversion G as [|? ? (HA & d & qk & q & qb & EC & GC) GR]; subst.
    assert (ST : exists ops1 out1, pipe_dense (layer_cfg c (kd_name l)) l inp data = Ok (ops1, out1, map (float_layer l) data) /\
       forall op, In op ops1 -> forall o, In o (pb_out (jo_body op)) -> node_sane o).
    { assert (HA' : (plain_act l \/ table_act l) \/ relu_act l) by tauto. destruct HA' as [HP|HR].
      - destruct (pipe_dense_ok c l inp data d qk q qb n EC GC HP SL NE LD) as (ops1 & out1 & PD & DE).
        exists ops1, out1. split; [exact PD|]. destruct DE as [(sk & m & ba & _ & _ & NB & _ & _ & H)]. cbv zeta in H.
        assert (SN : forall nn, node_ok nn q -> node_sane nn).
        { intros nn [A1 A2 A3 A4]. split; [exact A3|]. intros q' Hq'. assert (q' = q) by congruence. subst. exact A4. }
        destruct (is_table l).
        + destruct H as (os & oz & NO & _ & _ & ->). intros op [<- | [<- | []]] o [<- | []].
          * apply SN. destruct NB. constructor; assumption.
          * apply SN, NO.
        + destruct H as (_ & ->). intros op [<- | []] o [<- | []]. apply SN, NB.
      - destruct (RC1 HR) as (x & y & Hx & Hy & XY & X0 & Y0 & HB).
        assert (SH1 : shaped n [l]) by (destruct SH as (S1 & S2 & S3 & S4 & S5 & _); cbn [shaped]; tauto).
        destruct (C65_relu_layer c l inp data d qk q qb n x y EC GC HR SH1 LD Hx Hy XY X0 Y0 HB) as (op & o & PD & EO & SO & _).
        exists [op], o. rewrite EC. split.
        + rewrite PD. do 2 f_equal. apply map_ext. intros r. unfold float_layer. destruct (relu_facts l HR) as [-> _]. reflexivity.
        + intros op' [<- | []] o' Ho'. unfold out_node in EO.
          assert (PO : exists ba, pb_out (jo_body op) = [ba]).
          { destruct (pipe_dense_inv c l inp data d qk q qb n [op] o (map (affine l) data) EC GC HA SL LD) as [_ [(sk & m & ba & _ & _ & _ & H)]]; [rewrite EC; exact PD|].
            cbv zeta in H. destruct (relu_facts l HR) as [T1 _]. rewrite T1 in H. destruct H as [_ H].
            assert (op = fc_oper l inp (mkpn sk 0 (grepr qk) [length (kd_w l); width (kd_w l)] (PMat m) None) (quant_bias qb (pn_scale inp) sk (kd_b l)) ba) by congruence.
            subst op. exists ba. reflexivity. }
          destruct PO as [ba EP]. rewrite EP in *. cbn [hd] in EO. destruct Ho' as [<- | []]. subst. exact SO. }
    destruct ST as (ops1 & out1 & PD & S1).
    destruct (IH (kd_units l) out1 (map (float_layer l) data) SR GR) as (ops2 & out2 & PL & S2).
    { destruct data; [congruence|discriminate]. }
    { intros r Hr. apply in_map_iff in Hr as (y & <- & _). apply float_layer_length. }
    { exact RC2. }
    exists (ops1 ++ ops2), out2. split.
    { cbn [pipe_layers]. rewrite PD. cbn [rbind]. rewrite PL. reflexivity. }
    intros op Hop. apply in_app_or in Hop as [Hop|Hop]; [apply S1|apply S2]; exact Hop.
Qed.
Theorem C65_build_total : forall c ls data n, rready c ls data n -> relu_calibrated (denses ls) data ->
  exists j, pipe_build c ls data = Ok j /\ forall op o, In op (jt_graph j) -> In o (pb_out (jo_body op)) -> node_sane o.
Proof.
  intros c ls data n [[q [P N]] Hn Sh G LD NE] RC.
  destruct (pipe_input_ok _ q data n P N NE Hn LD) as (nd & EI & NI & _).
  destruct (rlayers_total c ls n nd data Sh G NE LD RC) as (ops & out & PL & HS).
  eexists. split; [unfold pipe_build; rewrite EI; cbn [rbind fst snd]; rewrite PL; cbn [rbind fst snd]; reflexivity|].
  cbn [jt_graph]. intros op o [<- | Hop] Ho.
  - destruct Ho as [<- | []]. destruct NI as [A1 A2 A3 A4]. split; [exact A3|]. intros q' Hq'. assert (q' = q) by congruence. subst. exact A4.
  - apply in_app_or in Hop as [Hop|[<- | []]]; [exact (HS op Hop o Ho)|destruct Ho].
Qed.

(** *** A concrete network: 2 inputs, 3 ReLU units, 2 ReLU6 units, 1 linear unit; default configuration. The inputs of the batch
    lie outside the calibration rows, too. *)
Definition rx_l1 : kdense :=
  mkkd (str "r1") 3 [[1#2; -1#3; 1#5]; [1#4; 2#3; -3#4]]%Q (Some [1#10; 0; -1#5]%Q) (str "relu") (fun x => x).
Definition rx_l2 : kdense := mkkd (str "r2") 2 [[1#1; 1#2]; [-1#2; 1#3]; [1#4; -1#1]]%Q None (str "relu6") (fun x => x).
Definition rx_l3 : kdense := mkkd (str "d3") 1 [[1#1]; [-1#2]]%Q None (str "linear") (fun x => x).
Definition rx_net : list plyr := [PDense rx_l1; PDense rx_l2; PSkip; PDense rx_l3].

Example C65_example_ready : rready cfg_default rx_net ex_rows 2.
Proof.
  constructor.
  - exists int8. split; [vm_compute; reflexivity|exact int8_narrow].
  - lia.
  - cbn [denses rx_net shaped rx_l1 rx_l2 rx_l3 kd_units kd_kernel kd_bias].
    repeat match goal with
    | |- _ /\ _ => split
    | |- (_ < _)%nat => lia
    | |- length _ = _ => reflexivity
    | |- forall row, In row _ -> _ => let Hr := fresh in intros ? Hr; repeat (destruct Hr as [<- | Hr]; [reflexivity|]); destruct Hr
    | |- True => exact I
    | |- forall b, None = Some b -> _ => intros ? ?; discriminate
    end.
    intros b Hb. assert (b = [1#10; 0; -1#5]%Q) by congruence. subst. reflexivity.
  - constructor; [|constructor; [|constructor; [|constructor]]];
    (split; [|exists dense_default, int8, int8, int32; split; [reflexivity|exact default_good]]).
    + right; right; left; vm_compute; reflexivity.
    + right; right; right; vm_compute; reflexivity.
    + left; left; vm_compute; reflexivity.
  - intros r Hr. repeat (destruct Hr as [<- | Hr]; [reflexivity|]). destruct Hr.
  - discriminate.
Qed.
(** a checker for node_sane *)
Definition node_saneb (n : pnode) : bool :=
  negb (Qle_bool (pn_scale n) 0) && match parse_dtype (pn_dtype n) with Ok q => (gmin q <=? pn_zp n) && (pn_zp n <=? gmax q) | _ => true end.
Lemma node_saneb_sound n : node_saneb n = true -> node_sane n.
Proof.
  unfold node_saneb. intros H. apply andb_true_iff in H as [H1 H2]. split.
  - apply Qnot_le_lt. intros C. apply Qle_bool_iff in C. rewrite C in H1. discriminate.
  - intros q Hq. rewrite Hq in H2. apply andb_true_iff in H2 as [H2 H3]. apply Z.leb_le in H2, H3. lia.
Qed.
(** a checker for the calibration condition of one ReLU layer *)
Definition argbest (f : Q -> Q -> bool) (A : list Q) : nat :=
  fst (fold_left (fun bi v => match bi with (b, i) => (if f v (nth b A 0%Q) then i else b, S i) end) A (0%nat, 0%nat)).
Definition relu_calb (lim6 : bool) (A : list Q) : bool :=
  let i := argbest (fun a b => Qle_bool a b) A in let j := argbest (fun a b => Qle_bool b a) A in
  let x := nth i A 0%Q in let y := nth j A 0%Q in
  (i <? length A)%nat && (j <? length A)%nat && forallb (fun v => Qle_bool x v && Qle_bool v y) A && Qle_bool x 0 && negb (Qle_bool y 0) &&
  Qle_bool (y - x) (512 * (if lim6 then 6 else y)).
Lemma relu_calb_sound lim6 A : relu_calb lim6 A = true ->
  exists x y, In x A /\ In y A /\ (forall v, In v A -> x <= v <= y)%Q /\ (x <= 0)%Q /\ (0 < y)%Q /\ (y - x <= 512 * (if lim6 then 6 else y))%Q.
Proof.
  unfold relu_calb. cbv zeta. set (i := argbest _ A). set (j := argbest _ A). intros H.
  apply andb_true_iff in H as [H H6]. apply andb_true_iff in H as [H H5]. apply andb_true_iff in H as [H H4].
  apply andb_true_iff in H as [H H3]. apply andb_true_iff in H as [H1 H2]. apply Nat.ltb_lt in H1, H2.
  exists (nth i A 0%Q), (nth j A 0%Q). split; [apply nth_In, H1|]. split; [apply nth_In, H2|]. split.
  { intros v Hv. rewrite forallb_forall in H3. specialize (H3 v Hv). apply andb_true_iff in H3 as [A1 A2]. apply Qle_bool_iff in A1, A2. split; assumption. }
  apply Qle_bool_iff in H4, H6. split; [exact H4|]. split; [|exact H6].
  apply Qnot_le_lt. intros C. apply Qle_bool_iff in C. rewrite C in H5. discriminate.
Qed.
Example C65_example_calibrated : relu_calibrated (denses rx_net) ex_rows.
Proof.
  cbn [denses rx_net relu_calibrated]. split; [|split; [|split; [|exact I]]].
  - intros _. apply (relu_calb_sound (is_relu6 rx_l1)). vm_compute. reflexivity.
  - intros _. apply (relu_calb_sound (is_relu6 rx_l2)). vm_compute. reflexivity.
  - intros [H|H]; vm_compute in H; discriminate.
Qed.
Example C65_example : exists j, pipe_build cfg_default rx_net ex_rows = Ok j /\ Forall op_ok (jt_graph j) /\
  exists net y1 y2 b1 b2, pipe_load j = Ok net /\ pipe_infer net [[1; -1]; [3; 2]]%Q = Ok (VF [[y1]; [y2]]) /\
    rerr cfg_default (fun _ => 1%Q) (fun _ => 0%Q) (denses rx_net) (tl (jt_graph j)) [1; -1]%Q (input_err (hd (mkjop [] [] (mkpb [] [])) (jt_graph j)) [1; -1]%Q) = b1 /\
    rerr cfg_default (fun _ => 1%Q) (fun _ => 0%Q) (denses rx_net) (tl (jt_graph j)) [3; 2]%Q (input_err (hd (mkjop [] [] (mkpb [] [])) (jt_graph j)) [3; 2]%Q) = b2 /\
    (b1 < 75 # 1000)%Q /\ (1 <= b2)%Q.
Proof.
  assert (K : match pipe_build cfg_default rx_net ex_rows with
    | Ok j => forallb (fun op => fc_op_okb op && forallb node_saneb (pb_out (jo_body op))) (jt_graph j) &&
        match pipe_load j with
        | Ok net => match pipe_infer net [[1; -1]; [3; 2]]%Q with
                    | Ok (VF [[y1]; [y2]]) => 
                       negb (Qle_bool (75 # 1000) (rerr cfg_default (fun _ => 1%Q) (fun _ => 0%Q) (denses rx_net) (tl (jt_graph j)) [1; -1]%Q (input_err (hd (mkjop [] [] (mkpb [] [])) (jt_graph j)) [1; -1]%Q))) &&
                       Qle_bool 1 (rerr cfg_default (fun _ => 1%Q) (fun _ => 0%Q) (denses rx_net) (tl (jt_graph j)) [3; 2]%Q (input_err (hd (mkjop [] [] (mkpb [] [])) (jt_graph j)) [3; 2]%Q))
                    | _ => false end
        | _ => false end
    | _ => false end = true) by (vm_compute; reflexivity).
  destruct (pipe_build cfg_default rx_net ex_rows) as [j|]; [|discriminate]. exists j. split; [reflexivity|].
  apply andb_true_iff in K as [K1 K]. split.
  { apply Forall_forall. intros o Ho. rewrite forallb_forall in K1. specialize (K1 o Ho). apply andb_true_iff in K1 as [K1 K2].
    split; [apply fc_op_okb_sound, K1|]. intros nn Hn. rewrite forallb_forall in K2. apply node_saneb_sound, K2, Hn. }
  destruct (pipe_load j) as [net|]; [|discriminate].
  destruct (pipe_infer net [[1; -1]; [3; 2]]%Q) as [[[|[|y1 [|]] [|[|y2 [|]] [|]]]|]|] eqn:E; try discriminate.
  exists net, y1, y2. eexists _, _. split; [reflexivity|]. split; [exact E|]. split; [reflexivity|]. split; [reflexivity|].
  apply andb_true_iff in K as [K3 K4]. apply Qle_bool_iff in K4. split; [|exact K4].
  apply Qnot_le_lt. intros C. apply Qle_bool_iff in C. rewrite C in K3. discriminate.
Qed.
