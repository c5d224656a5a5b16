(** Properties C58, C60: the complete quantize / export / load / infer pipeline on dense networks.
    The vocabulary (float network, covered inputs, conditions on the export, error bound) is in PipeSpec.v. *)
From Verif Require Import Base BaseProofs DtypeModel DtypeProofs QuantModel QuantProofs LutModel LutProofs FcModel FcProofs FcLayer
  EngineModel EngineProofs DistModel DistProofs BuildModel PipeModel PropCore PropFc PropEngine PropDist PropNodeLut PipeSpec PipeProofs.
From Coq Require Import Lqa Qminmax.
Open Scope Z_scope.
Open Scope list_scope.

(** ** C58 *)
(** A configuration and a network the theorems speak about: a narrow input dtype, usable layer configurations, linear,
    softmax, tanh or sigmoid layers of matching shapes; calibration rows of the input size. *)
Record ready (c : qcfg) (ls : list plyr) (data : list (list Q)) (n : nat) : Prop := {
  rd_in : exists q, parse_dtype (c_quantize c) = Ok q /\ narrow q;
  rd_pos : (0 < n)%nat;
  rd_shape : shaped n (denses ls);
  rd_cfg : Forall (good_layer c) (denses ls);
  rd_rows : forall r, In r data -> length r = n;
  rd_data : data <> [] }.

(** Quantizing such a network always succeeds; the graph is a QUANTIZE operator, one or two operators per layer, DEQUANTIZE. *)
Theorem C58_build_total : forall c ls data n, ready c ls data n ->
  exists j qop ops dop, pipe_build c ls data = Ok j /\ jt_graph j = qop :: ops ++ [dop] /\
    jo_type qop = str "QUANTIZE" /\ jo_type dop = str "DEQUANTIZE" /\ length ops = op_count (denses ls).
Proof.
  intros c ls data n [[q [P N]] Hn Sh G LD NE].
  destruct (pipe_input_ok _ q data n P N NE Hn LD) as (nd & EI & NI & _).
  destruct (layers_ok c ls n nd data q Sh G NI NE LD) as (ops & out & qo & PL & _ & CNT & _).
  eexists _, _, ops, _. split; [unfold pipe_build; rewrite EI; cbn [rbind fst snd]; rewrite PL; cbn [rbind fst snd]; reflexivity|].
  cbn [jt_graph]. repeat split. exact CNT.
Qed.

(** The exported file loads in the inference engine and, for every batch of inputs whose intermediate values stay in the range
    seen during calibration, every output of the integer network is within [err_bound] of the float network. The bound starts
    from half an input step and is computed from the exported scales (PipeSpec.v). *)
Definition within (e : Q) (y z : list Q) : Prop :=
  length y = length z /\ forall i, (i < length z)%nat -> (Qabs (nth i y 0 - nth i z 0) <= e)%Q.
Theorem C58_network_error : forall c ls data n L D j, ready c ls data n ->
  (forall l, In l (denses ls) -> table_act l -> lipschitz L D l) ->
  pipe_build c ls data = Ok j -> Forall fc_op_ok (jt_graph j) ->
  exists net, pipe_load j = Ok net /\
  forall batch, batch <> [] -> (forall x, In x batch -> length x = n /\ covered (denses ls) data x) ->
  exists Y, pipe_infer net batch = Ok (VF Y) /\
    Forall2 (fun x y => within (err_bound c L D (denses ls) (tl (jt_graph j)) x (out_scale (hd (mkjop [] [] (mkpb [] [])) (jt_graph j)) * (1#2)))
                               y (float_net (denses ls) x)) batch Y.
Proof.
  intros c ls data n L D j [[q [P N]] Hn Sh G LD NE] LIP PB OK.
  destruct (pipe_input_ok _ q data n P N NE Hn LD) as (nd & EI & NI & FN).
  destruct (layers_ok c ls n nd data q Sh G NI NE LD) as (ops & out & qo & PL & NO & CNT & HL).
  unfold pipe_build in PB. rewrite EI in PB. cbn [rbind fst snd] in PB. rewrite PL in PB. cbn [rbind fst snd] in PB.
  match type of PB with Ok ?a = Ok j => assert (EJ : j = a) by congruence end. clear PB.
  set (qop := mkjop (str "QUANTIZE") (str "QUANTIZE") (mkpb [] [nd])) in *.
  set (dop := mkjop (str "DEQUANTIZE") (str "DEQUANTIZE") (mkpb [out] [])) in *.
  rewrite EJ in OK. cbn [jt_graph] in OK. inversion OK as [|? ? _ OK']; subst. apply Forall_app_inv in OK' as [OK1 _].
  destruct (HL L D LIP OK1) as (lys & gs & B1 & B2 & B3). clear HL.
  cbn [jt_graph tl hd].
  change (out_scale qop) with (pn_scale nd).
  (* the first and the last layer of the engine *)
  assert (BQ : exists lq, build_layer ie_builders qop = Ok lq /\ forall b, lq (VF b) = Ok (VI (map (map (quant1 q (pn_zp nd) (pn_scale nd))) b))).
  { eexists. split.
    - unfold build_layer, qop. cbn [jo_type jo_body].
      assert (build_layer_kind (str "QUANTIZE") = Ok KQuantize) as -> by (vm_compute; reflexivity).
      cbn [rbind ie_builders b_tflite]. unfold ie_quantize. cbn [pb_out]. change (py_index [nd] 0) with (Ok nd). cbn [rbind].
      rewrite (no_dtype _ _ NI). cbn [rbind]. reflexivity.
    - intros b. reflexivity. }
  assert (BD : exists ld, build_layer ie_builders dop = Ok ld /\ forall m, ld (VI m) = Ok (VF (map (map (dequant1 (pn_zp out) (pn_scale out))) m))).
  { eexists. split.
    - unfold build_layer, dop. cbn [jo_type jo_body].
      assert (build_layer_kind (str "DEQUANTIZE") = Ok KDequantize) as -> by (vm_compute; reflexivity).
      cbn [rbind ie_builders b_tflite]. unfold ie_dequantize. cbn [pb_in]. change (py_index [out] 0) with (Ok out). cbn [rbind].
      rewrite (no_dtype _ _ NO). cbn [rbind]. reflexivity.
    - intros b. reflexivity. }
  destruct BQ as (lq & BQ1 & BQ2), BD as (ld & BD1 & BD2).
  assert (MA : mapM (build_layer ie_builders) (qop :: ops ++ [dop]) = Ok (lq :: lys ++ [ld])).
  { cbn [mapM]. rewrite BQ1. cbn [rbind].
    assert (X : mapM (build_layer ie_builders) (ops ++ [dop]) = Ok (lys ++ [ld])); [|rewrite X; reflexivity].
    clear -B1 BD1. revert lys B1. induction ops as [|o ops IHo]; intros lys B1; cbn [app mapM] in *.
    - assert (lys = []) by congruence. subst. rewrite BD1. reflexivity.
    - destruct (build_layer ie_builders o) as [ly|]; [|discriminate]. cbn [rbind] in *.
      destruct (mapM (build_layer ie_builders) ops) as [r|] eqn:E; [|discriminate]. cbn [rbind] in B1.
      rewrite (IHo r eq_refl). cbn [rbind]. assert (lys = ly :: r) by congruence. subst. reflexivity. }
  exists (mkseq true None None (lq :: lys ++ [ld]) []). split.
  { unfold pipe_load, seq_init. cbn [jt_input jt_output jt_graph jt_engine].
    change (py_index [Some (mkjnode None None)] 0) with (Ok (Some (mkjnode None None))). cbn [rbind].
    change (py_index (qop :: ops ++ [dop]) 0) with (Ok qop). cbn [rbind].
    assert (contains (chars_of "QUANT") (upper (jo_name qop)) = true) as -> by (vm_compute; reflexivity).
    assert (get_engine ie_builders (str "tflite") = Ok (build_layer ie_builders)) as -> by reflexivity.
    cbn [rbind]. rewrite MA. reflexivity. }
  intros batch BN HB.
  set (bq := map (map (quant1 q (pn_zp nd) (pn_scale nd))) batch).
  assert (CH : exists yq, Forall2 (chain gs) bq yq /\
    Forall2 (fun x y => near out qo (err_bound c L D (denses ls) ops x (pn_scale nd * (1#2))%Q) (float_net (denses ls) x) y) batch yq).
  { unfold bq. clear BN bq. induction batch as [|x batch IH].
    - exists []. split; constructor.
    - destruct IH as (yq & I1 & I2). { intros; apply HB; now right. }
      destruct (HB x ltac:(now left)) as [Lx CV].
      destruct (B3 x (map (quant1 q (pn_zp nd) (pn_scale nd)) x) (pn_scale nd * (1#2))%Q) as (y & Y1 & Y2); [|exact Lx|exact CV|].
      + apply (input_near nd q data); [exact NI|exact FN|]. intros v Hv. eapply covered_rows; eassumption.
      + exists (y :: yq). split; constructor; assumption. }
  destruct CH as (yq & C1 & C2).
  assert (BQN : bq <> []) by (unfold bq; destruct batch; [congruence|discriminate]).
  destruct (chain_runs lys gs B2 bq yq BQN C1) as (t & R).
  assert (RA : exists t', runs (lq :: lys ++ [ld]) (VF batch) t' (VF (map (map (dequant1 (pn_zp out) (pn_scale out))) yq))).
  { assert (X : exists t', runs (lys ++ [ld]) (VI bq) t' (VF (map (map (dequant1 (pn_zp out) (pn_scale out))) yq))).
    { clear -R BD2. remember (VI bq) as a eqn:Ea. remember (VI yq) as b eqn:Eb. clear Ea. induction R as [x|l lys x y t z E _ IH].
      - subst. eexists. cbn [app]. econstructor; [apply BD2|constructor].
      - destruct (IH Eb) as [t' X]. eexists. cbn [app]. econstructor; [exact E|exact X]. }
    destruct X as [t' X]. eexists. econstructor; [apply BQ2|exact X]. }
  destruct RA as (t' & RA).
  exists (map (map (dequant1 (pn_zp out) (pn_scale out))) yq). split.
  { unfold pipe_infer.
    rewrite (proj1 (C20_infer_composes _ no_toi8 (mkseq true None None (lq :: lys ++ [ld]) []) (VF batch) t' _ eq_refl) RA). reflexivity. }
  (* the error bound only looks at the layers' operators *)
  assert (EB : forall ls' g x e, length g = op_count ls' -> err_bound c L D ls' (g ++ [dop]) x e = err_bound c L D ls' g x e).
  { clear. induction ls' as [|l ls' IH]; intros g x e Lg.
    - destruct g; [reflexivity|discriminate].
    - unfold op_count in Lg. cbn [fold_right] in Lg. fold (op_count ls') in Lg.
      destruct g as [|o g]; [destruct (is_table l); discriminate|]. cbn [app err_bound].
      destruct (is_table l).
      + destruct g as [|a g]; [discriminate|]. cbn [app]. apply IH. cbn in Lg. lia.
      + apply IH. cbn in Lg. lia. }
  clear -C2 NO EB CNT. induction C2 as [|x y batch yq H _ IH]; cbn [map]; constructor; [|exact IH].
  rewrite EB by exact CNT. destruct H as [H1 H2 H3]. split; [now rewrite map_length|].
  intros i Hi. set (h := dequant1 (pn_zp out) (pn_scale out)).
  rewrite (nth_indep (map h y) 0%Q (h 0)) by (rewrite map_length, H1; exact Hi). rewrite map_nth. unfold h.
  pose proof (no_narrow _ _ NO) as (N1 & N2 & N3). pose proof (no_zp _ _ NO) as NZ.
  assert (IY : in_dtype qo (nth i y 0)) by (apply H2, nth_In; lia).
  rewrite (dequant1_nowrap qo) by (try exact N1; try exact IY; unfold zp_nowrap, in_dtype, within_int32 in *; lia).
  rewrite (Qmult_comm (inject_Z _)). apply H3, Hi.
Qed.

(** The calibration rows themselves are always covered: the bound holds for them without any condition on the values. *)
Theorem C58_calibration_rows_covered : forall ls data x, In x data -> covered ls data x.
Proof. exact calibration_covered. Qed.

(** *** A concrete network: 2 inputs, 3 units with a tanh-shaped activation, Dropout, 2 linear units; default configuration *)
Definition soft (x : Q) : Q := (x / (1 + Qabs x))%Q.
Definition ex_l1 : kdense :=
  mkkd (str "d1") 3 [[1#2; -1#3; 1#5]; [1#4; 2#3; -3#4]]%Q (Some [1#10; 0; -1#5]%Q) (str "tanh") soft.
Definition ex_l2 : kdense := mkkd (str "d2") 2 [[1#1; 1#2]; [-1#2; 1#3]; [1#4; -1#1]]%Q None (str "linear") (fun x => x).
Definition ex_net : list plyr := [PDense ex_l1; PSkip; PDense ex_l2].
Definition ex_rows : list (list Q) := [[1; -1]; [-1#2; 1#2]; [3#4; 1]; [0; -1#4]]%Q.

Lemma soft_lipschitz a b : (Qabs (soft a - soft b) <= Qabs (a - b))%Q.
Proof.
  assert (G : forall a b, (a <= b)%Q -> (0 <= soft b - soft a <= b - a)%Q).
  { clear. intros a b H. unfold soft.
    assert (K : forall p r, (0 <= p)%Q -> (0 <= r)%Q -> (p <= r)%Q -> (0 <= r / (1 + r) - p / (1 + p) <= r - p)%Q).
    { clear. intros p r P R H. setoid_replace (r / (1 + r) - p / (1 + p))%Q with ((r - p) / ((1 + r) * (1 + p)))%Q by (field; split; lra).
      assert (X : (0 < (1 + r) * (1 + p))%Q) by nra. split.
      - apply Qle_shift_div_l; [exact X|]. rewrite Qmult_0_l. lra.
      - apply Qle_shift_div_r; [exact X|].
        assert (Y : (0 <= (r - p) * (r + p + r * p))%Q) by (apply Qmult_le_0_compat; [lra|assert (0 <= r * p)%Q by (apply Qmult_le_0_compat; assumption); lra]).
        lra. }
    destruct (Qlt_le_dec a 0) as [A|A]; destruct (Qlt_le_dec b 0) as [B|B].
    - rewrite (Qabs_neg a), (Qabs_neg b) by lra. destruct (K (-b)%Q (-a)%Q ltac:(lra) ltac:(lra) ltac:(lra)) as [K1 K2].
      assert (E : (b / (1 + - b) - a / (1 + - a) == - a / (1 + - a) - - b / (1 + - b))%Q) by (field; split; lra).
      rewrite E. split; lra.
    - rewrite (Qabs_neg a), (Qabs_pos b) by lra.
      destruct (K 0%Q b ltac:(lra) ltac:(lra) ltac:(lra)) as [K1 K2]. destruct (K 0%Q (-a)%Q ltac:(lra) ltac:(lra) ltac:(lra)) as [K3 K4].
      assert (E0 : (0 / (1 + 0) == 0)%Q) by reflexivity. rewrite E0 in *.
      assert (E : (a / (1 + - a) == - (- a / (1 + - a)))%Q) by (field; lra). rewrite E. split; lra.
    - lra.
    - rewrite (Qabs_pos a), (Qabs_pos b) by lra. apply K; assumption. }
  destruct (Qlt_le_dec a b) as [H|H].
  - specialize (G a b ltac:(lra)). rewrite (Qabs_neg (soft a - soft b)), (Qabs_neg (a - b)) by lra. lra.
  - specialize (G b a H). rewrite (Qabs_pos (soft a - soft b)), (Qabs_pos (a - b)) by lra. lra.
Qed.

(** a checker for fc_op_ok *)
Definition fc_op_okb (op : jop pbody) : bool :=
  match pb_in (jo_body op), pb_out (jo_body op) with
  | [i; k; b], [o] =>
      match pn_tensor k, pn_tensor b, parse_dtype (pn_dtype i), parse_dtype (pn_dtype k), parse_dtype (pn_dtype b) with
      | PMat w, PVec bv, Ok di, Ok dk, Ok db =>
          let m := (pn_scale i * pn_scale k / pn_scale o)%Q in
          Qle_bool (1 # 1000000) m && negb (Qle_bool (inject_Z (2 ^ 29)) m) &&
          forallb (fun v => (gmin db <? v) && (v <? gmax db) &&
            (Z.of_nat (width w) * ((gmax di - gmin di) * Z.max (gmax dk) (- gmin dk)) + Z.abs v <=? 2 ^ 31)) bv
      | _, _, _, _, _ => true
      end
  | _, _ => true
  end.
Lemma fc_op_okb_sound op : fc_op_okb op = true -> fc_op_ok op.
Proof.
  unfold fc_op_okb, fc_op_ok. intros H i k b o w bv di dk db E1 E2 E3 E4 E5 E6 E7. rewrite E1, E2, E3, E4, E5, E6, E7 in H.
  apply andb_true_iff in H as [H H3]. apply andb_true_iff in H as [H1 H2]. apply Qle_bool_iff in H1.
  split; [exact H1|]. split.
  - apply Qnot_le_lt. intros C. apply Qle_bool_iff in C. rewrite C in H2. discriminate.
  - intros v Hv. rewrite forallb_forall in H3. specialize (H3 v Hv).
    apply andb_true_iff in H3 as [H3 H4]. apply andb_true_iff in H3 as [H5 H6].
    apply Z.ltb_lt in H5, H6. apply Z.leb_le in H4. repeat split; assumption.
Qed.

Lemma int8_narrow : narrow int8. Proof. unfold narrow, within_int32; simpl; lia. Qed.
Lemma int32_fits : within_int32 int32. Proof. unfold within_int32; simpl; lia. Qed.
Lemma default_good : good_cfg dense_default int8 int8 int32.
Proof.
  constructor; try reflexivity; try (vm_compute; reflexivity); try exact int8_narrow; exact int32_fits.
Qed.
Example C58_example_ready : ready cfg_default ex_net ex_rows 2.
Proof.
  constructor.
  - exists int8. split; [vm_compute; reflexivity|exact int8_narrow].
  - lia.
  - cbn [denses ex_net shaped ex_l1 ex_l2 kd_units kd_kernel kd_bias].
    split; [lia|]. split; [lia|]. split; [reflexivity|].
    split; [intros r Hr; repeat (destruct Hr as [<- | Hr]; [reflexivity|]); destruct Hr|].
    split; [intros b Hb; assert (b = [1#10; 0; -1#5]%Q) by congruence; subst; reflexivity|].
    split; [lia|]. split; [lia|]. split; [reflexivity|].
    split; [intros r Hr; repeat (destruct Hr as [<- | Hr]; [reflexivity|]); destruct Hr|].
    split; [intros b Hb; discriminate|exact I].
  - constructor; [|constructor; [|constructor]].
    + split; [right; left; vm_compute; reflexivity|]. exists dense_default, int8, int8, int32. split; [reflexivity|exact default_good].
    + split; [left; left; vm_compute; reflexivity|]. exists dense_default, int8, int8, int32. split; [reflexivity|exact default_good].
  - intros r Hr. repeat (destruct Hr as [<- | Hr]; [reflexivity|]). destruct Hr.
  - discriminate.
Qed.
Example C58_example_lipschitz : forall l, In l (denses ex_net) -> table_act l -> lipschitz (fun _ => 1%Q) (fun _ => 0%Q) l.
Proof.
  intros l [<- | [<- | []]] T.
  - repeat split; try discriminate. intros a b. eapply Qle_trans; [apply soft_lipschitz|]. lra.
  - destruct T as [T|T]; vm_compute in T; discriminate.
Qed.
(** Everything together: the conditions hold, the bound is about 0.05, and the actual outputs are about 0.61, -0.46 *)
Example C58_example : exists j, pipe_build cfg_default ex_net ex_rows = Ok j /\ Forall fc_op_ok (jt_graph j) /\
  (err_bound cfg_default (fun _ => 1%Q) (fun _ => 0%Q) (denses ex_net) (tl (jt_graph j)) [1; -1]
     (out_scale (hd (mkjop [] [] (mkpb [] [])) (jt_graph j)) * (1#2)) < 51 # 1000)%Q /\
  float_net (denses ex_net) [1; -1]%Q <> [] /\
  exists net y1 y2, pipe_load j = Ok net /\ pipe_infer net [[1; -1]%Q] = Ok (VF [[y1; y2]]) /\
    (Qabs (y1 - (6115 # 10000)) <= 1 # 10000)%Q /\ (Qabs (y2 - (-4634 # 10000)) <= 1 # 10000)%Q.
Proof.
  assert (K : match pipe_build cfg_default ex_net ex_rows with
    | Ok j => forallb fc_op_okb (jt_graph j) &&
        negb (Qle_bool (51 # 1000) (err_bound cfg_default (fun _ => 1%Q) (fun _ => 0%Q) (denses ex_net) (tl (jt_graph j)) [1; -1]%Q
          (out_scale (hd (mkjop [] [] (mkpb [] [])) (jt_graph j)) * (1#2)))) &&
        match pipe_load j with
        | Ok net => match pipe_infer net [[1; -1]%Q] with
                    | Ok (VF [[y1; y2]]) => Qle_bool (Qabs (y1 - (6115 # 10000))) (1 # 10000) && Qle_bool (Qabs (y2 - (-4634 # 10000))) (1 # 10000)
                    | _ => false end
        | _ => false end
    | _ => false end = true) by (vm_compute; reflexivity).
  destruct (pipe_build cfg_default ex_net ex_rows) as [j|]; [|discriminate]. exists j. split; [reflexivity|].
  apply andb_true_iff in K as [K K3]. apply andb_true_iff in K as [K1 K2]. split.
  { apply Forall_forall. intros o Ho. apply fc_op_okb_sound. rewrite forallb_forall in K1. now apply K1. }
  split. { apply Qnot_le_lt. intros C. apply Qle_bool_iff in C. rewrite C in K2. discriminate. }
  split; [discriminate|].
  destruct (pipe_load j) as [net|]; [|discriminate]. destruct (pipe_infer net [[1; -1]%Q]) as [[[|[|y1 [|y2 [|]]] [|]]|]|] eqn:E; try discriminate.
  exists net, y1, y2. split; [reflexivity|]. split; [exact E|]. apply andb_true_iff in K3 as [K3 K4].
  apply Qle_bool_iff in K3, K4. split; assumption.
Qed.

(** ** C60: conditions of C58 that cannot be dropped *)
(** (a) ReLU layers: the data used to calibrate the next layer is the PRE-activation, so a later layer can be given a range its
    own calibration rows leave. The network relu(x) + relu(-x) = |x|, calibrated on 100 and -100, returns less than 1/2 there. *)
Definition abs_l1 : kdense := mkkd (str "d1") 2 [[1; -1]]%Q None (str "relu") (fun x => Qmax x 0).
Definition abs_l2 : kdense := mkkd (str "d2") 1 [[1]; [1]]%Q None (str "linear") (fun x => x).
Theorem C60_relu_calibration_refuted :
  let rows := [[100]; [-100]]%Q in
  (* the float network *)
  (forall x, In x rows -> (hd 0%Q (affine abs_l2 (map (kd_fn abs_l1) (affine abs_l1 x))) == 100)%Q) /\
  exists j net y1 y2, pipe_build cfg_default [PDense abs_l1; PDense abs_l2] rows = Ok j /\ pipe_load j = Ok net /\
    Forall fc_op_ok (jt_graph j) /\
    pipe_infer net rows = Ok (VF [[y1]; [y2]]) /\ (y1 < 1#2)%Q /\ (y2 < 1#2)%Q.
Proof.
  intros rows. split. { intros x [<- | [<- | []]]; vm_compute; reflexivity. }
  assert (K : match pipe_build cfg_default [PDense abs_l1; PDense abs_l2] rows with
    | Ok j => forallb fc_op_okb (jt_graph j) &&
        match pipe_load j with
        | Ok net => match pipe_infer net rows with
                    | Ok (VF [[y1]; [y2]]) => negb (Qle_bool (1#2) y1) && negb (Qle_bool (1#2) y2)
                    | _ => false end
        | _ => false end
    | _ => false end = true) by (vm_compute; reflexivity).
  destruct (pipe_build cfg_default [PDense abs_l1; PDense abs_l2] rows) as [j|]; [|discriminate].
  apply andb_true_iff in K as [K1 K3].
  destruct (pipe_load j) as [net|] eqn:EL; [|discriminate].
  destruct (pipe_infer net rows) as [[[|[|y1 [|]] [|[|y2 [|]] [|]]]|]|] eqn:E; try discriminate.
  exists j, net, y1, y2. split; [reflexivity|]. split; [exact EL|]. split.
  { apply Forall_forall. intros o Ho. apply fc_op_okb_sound. rewrite forallb_forall in K1. now apply K1. }
  split; [exact E|]. apply andb_true_iff in K3 as [K3 K4]. apply negb_true_iff in K3, K4.
  split; apply Qnot_le_lt; intros C; apply Qle_bool_iff in C; congruence.
Qed.

(** (b) The activation table is computed in the dtype of the bias-add node. With 16-bit activations and 8-bit bias-adds (both
    accepted by the configuration) the table saturates at 8 bits although its scale is that of a 16-bit node: a tanh-shaped layer
    returns less than 1/500 where the activation is 1/2. *)
Definition cfg_mixed : qcfg := mkqc (mkdc (str "int16") (str "int8") (str "int32") (str "int8") true None 3) (str "int8") None None [].
Definition mix_l : kdense := mkkd (str "d1") 1 [[1]]%Q None (str "tanh") soft.
Theorem C60_mixed_width_table_refuted :
  let rows := [[1]; [-1]]%Q in
  (hd 0%Q (float_layer mix_l [1]%Q) == 1#2)%Q /\
  exists j net y1 y2, pipe_build cfg_mixed [PDense mix_l] rows = Ok j /\ pipe_load j = Ok net /\ Forall fc_op_ok (jt_graph j) /\
    pipe_infer net rows = Ok (VF [[y1]; [y2]]) /\ (Qabs y1 < 1#500)%Q /\ (Qabs y2 < 1#500)%Q.
Proof.
  intros rows. split. { vm_compute. reflexivity. }
  assert (K : match pipe_build cfg_mixed [PDense mix_l] rows with
    | Ok j => forallb fc_op_okb (jt_graph j) &&
        match pipe_load j with
        | Ok net => match pipe_infer net rows with
                    | Ok (VF [[y1]; [y2]]) => negb (Qle_bool (1#500) (Qabs y1)) && negb (Qle_bool (1#500) (Qabs y2))
                    | _ => false end
        | _ => false end
    | _ => false end = true) by (vm_compute; reflexivity).
  destruct (pipe_build cfg_mixed [PDense mix_l] rows) as [j|]; [|discriminate].
  apply andb_true_iff in K as [K1 K3].
  destruct (pipe_load j) as [net|] eqn:EL; [|discriminate].
  destruct (pipe_infer net rows) as [[[|[|y1 [|]] [|[|y2 [|]] [|]]]|]|] eqn:E; try discriminate.
  exists j, net, y1, y2. split; [reflexivity|]. split; [exact EL|]. split.
  { apply Forall_forall. intros o Ho. apply fc_op_okb_sound. rewrite forallb_forall in K1. now apply K1. }
  split; [exact E|]. apply andb_true_iff in K3 as [K3 K4]. apply negb_true_iff in K3, K4.
  split; apply Qnot_le_lt; intros C; apply Qle_bool_iff in C; congruence.
Qed.

(** (c) The shape exported for the output of a FULLY_CONNECTED operator is the number of INPUTS of the layer, not of its units. *)
Theorem C60_exported_fc_shape : forall d l inp data ops out data', 
  pipe_dense (CDense d) l inp data = Ok (ops, out, data') ->
  exists fc o, hd_error ops = Some fc /\ jo_type fc = str "FULLY_CONNECTED" /\ pb_out (jo_body fc) = [o] /\
    pn_shape o = [length (hd [] data)].
Proof.
  intros d l inp data ops out data' H. unfold pipe_dense in H.
  destruct (parse_dtype (d_kernel d)) as [qk|]; [|discriminate]. destruct (parse_dtype (d_act d)) as [qa|]; [|discriminate].
  destruct (parse_dtype (d_bias_add d)) as [qba|]; [|discriminate]. destruct (parse_dtype (d_bias d)) as [qb|]; [|discriminate].
  cbn [rbind] in H. destruct (quant_kernel _ _ _) as [k|]; [|discriminate]. cbn [rbind] in H.
  destruct (quant_bias_add _ _ _ _) as [ba|] eqn:EB; [|discriminate]. cbn [rbind] in H.
  destruct (d_opt d); [discriminate|].
  assert (SB : pn_shape ba = [length (hd [] data)]).
  { unfold quant_bias_add in EB. destruct (calibrate _) as [dd|]; [|discriminate]. cbn [rbind] in EB.
    destruct (fused_trim _ dd) as [d2|]; [|discriminate]. cbn [rbind] in EB. destruct (dist_quantize _ _ _ _ _) as [sz|]; [|discriminate].
    cbn [rbind] in EB. match type of EB with Ok ?a = Ok ba => assert (X : ba = a) by congruence end. rewrite X. reflexivity. }
  destruct (quant_activation l qa qba ba _) as [[[ba' act] dd]|] eqn:EA; [|discriminate]. cbn [rbind] in H.
  assert (SB' : pn_shape ba' = pn_shape ba).
  { unfold quant_activation in EA. destruct (mem _ SKIP_FUNCTIONS); [congruence|].
    destruct (calibrate _) as [d3|]; [|discriminate]. cbn [rbind] in EA. destruct (dist_quantize _ _ _ _ _) as [sz|]; [|discriminate]. cbn [rbind] in EA.
    match type of EA with Ok (?a, _, _) = _ => assert (X : ba' = a) by congruence end. rewrite X. destruct (mem _ LUT_FUNCTIONS); reflexivity. }
  destruct act as [[op o]|];
    match type of H with Ok (?a, _, _) = _ => assert (X : ops = a) by congruence end; subst ops;
    eexists _, ba'; (split; [reflexivity|]); (split; [reflexivity|]); (split; [reflexivity|]); congruence.
Qed.
