(** Property C85: Keras models with LSTM layers, from build() to the inference engine.  Vocabulary in RnnSpec.v. *)
From Verif Require Import Base BaseProofs DtypeModel DtypeProofs QuantModel QuantProofs LutModel LutProofs FcModel FcProofs FcLayer
  EngineModel EngineProofs DistModel DistProofs BuildModel PipeModel LstmModel KLstmModel PropCore PropFc PropEngine PropDist PropNodeLut PropRelu PipeSpec PipeProofs
  LstmProofs PropLstm KLstmSpec KLstmProofs KLstmError PropKLstm PropPipe RPipeSpec RPipeProofs PropRPipe CertSpec PropCert RnnModel RnnSpec RnnProofs.
From Verif Require NodeModel.
From Coq Require Import Lqa Qminmax.
Open Scope Z_scope.
Open Scope list_scope.

(** Dropout layers leave no trace in the file. *)
Theorem C85_dropout : forall fn c ls data, rnn_build fn c ls data = rnn_build fn c (filter kept ls) data.
Proof.
  intros fn c ls data. unfold rnn_build. destruct (pipe_input (c_quantize c) (concat data)) as [i|]; [|reflexivity]. cbn [rbind].
  rewrite (skip_dropped fn c ls). reflexivity.
Qed.

Lemma sequences_flat n T data : (0 < T)%nat -> data <> [] -> sequences n T data -> concat data <> [] /\ forall r, In r (concat data) -> length r = n.
Proof.
  intros HT ND SQ. split.
  - destruct data as [|xs data]; [congruence|]. destruct (SQ xs ltac:(now left)) as [L _]. destruct xs; [cbn in L; lia|discriminate].
  - intros r Hr. apply in_concat in Hr as (xs & Hx & Hr). apply (SQ xs Hx), Hr.
Qed.
Lemma stack_pos sq n lst : lstm_stack sq n lst -> (0 < n)%nat /\ lst <> [].
Proof. destruct lst as [|l [|]]; intros H; [destruct H| |]; (split; [apply (ll_pos _ _ (proj1 H))|discriminate]). Qed.
Lemma stack_last_length fn : forall lst n sq xs, lstm_stack sq n lst -> (0 < length xs)%nat -> length (last (stack_seq fn lst xs) []) = stack_width lst.
Proof.
  induction lst as [|l lst IH]; intros n sq xs ST H; [destruct ST|]. destruct lst as [|l2 lst].
  - cbn [stack_seq fold_left stack_width map last]. unfold lstm_seq. rewrite last_map_seq by exact H. now rewrite map_length, seq_length.
  - destruct ST as (_ & _ & ST). change (stack_seq fn (l :: l2 :: lst) xs) with (stack_seq fn (l2 :: lst) (lstm_seq fn l xs)).
    rewrite (IH _ _ _ ST) by (rewrite lstm_seq_length; exact H). unfold stack_width. reflexivity.
Qed.

(** The model is quantized and exported: one operator per LSTM layer, then the operators of the dense layers.  If no bias is
    saturated, the multipliers are in range and the accumulators fit, the file loads; and for every batch of sequences (of any
    length T') whose LSTM values stay within what calibration saw, every output of the integer network is within the computed
    bound of the float network: the bound of the LSTM stack after the last step, pushed through the dense layers. *)
Theorem C85_error : forall fn c ls lst ds n T data L D Ls Ds Lt Dt,
  model_is ls lst ds -> rnn_ready c false lst ds n T data ->
  relu_calibrated ds (map (fun xs => last (stack_seq fn lst xs) []) data) ->
  bounded_lip (fn_sig fn) Ls Ds -> bounded_lip (fn_tanh fn) Lt Dt -> (forall l, In l ds -> is_table l = true -> lipschitz L D l) ->
  exists j qop lops dops dq, rnn_build fn c ls data = Ok j /\
    jt_graph j = lift_op qop :: lops ++ map lift_op dops ++ [lift_op dq] /\ length lops = length lst /\
    (stack_file_ok lst lops -> Forall fc_op_ok dops ->
     exists net, rnn_load j = Ok net /\
     forall T' X ex batch, (0 < T')%nat -> batch <> [] -> sequences n T' batch ->
       (forall xs x, In xs batch -> In x xs -> (abssum x <= X)%Q /\ (input_err qop x <= ex)%Q) ->
       (forall xs, In xs batch -> stack_covered fn T lst data xs) ->
     exists Y, rnn_infer net batch = Ok (R2 (VF Y)) /\
       Forall2 (fun xs y => within (cert L D ds dops (last (stack_seq fn lst xs) []) (stack_err Ls Ds Lt Dt lst lops X ex T' (T' - 1)))
                                   y (rnn_float fn lst ds xs)) batch Y).
Proof.
  intros fn c ls lst ds n T data L D Ls Ds Lt Dt MI [(q & P & SI) HT ND SQ ST Sh G] RC BS BT LIP.
  destruct (stack_pos _ _ _ ST) as [Hn NL].
  destruct (sequences_flat n T data HT ND SQ) as [NF LF].
  destruct (pipe_input_ok (c_quantize c) q (concat data) n P (short_narrow _ SI) NF Hn LF) as (nd & EI & NI & _).
  destruct (stack_ok fn c false Ls Ds Lt Dt BS BT lst n nd q T data ST NI SI HT ND SQ) as (lops & o1 & LO & NO & _ & RL1 & RUN).
  set (rows := map (fun xs => last (stack_seq fn lst xs) []) data) in *.
  assert (DD : denses (map PDense ds) = ds) by (clear; induction ds as [|l ds IH]; [reflexivity|]; cbn [map denses]; now rewrite IH).
  assert (NR : rows <> []) by (unfold rows; destruct data; [congruence|discriminate]).
  assert (LR : forall r, In r rows -> length r = stack_width lst).
  { intros r Hr. apply in_map_iff in Hr as (xs & <- & Hx). apply (stack_last_length fn lst n false); [exact ST|]. rewrite (proj1 (SQ xs Hx)). exact HT. }
  destruct (rlayers_total c (map PDense ds) (stack_width lst) o1 rows) as (dops & out & PL & SANE); try (rewrite DD); try assumption.
  assert (EB : rnn_build fn c ls data = Ok (mkjnet (str "tflite") (quant_op nd :: (lops ++ map lift_op dops) ++ [deq_op out])
                 [Some (mkjnode None None)] [Some (mkjnode None None)])).
  { rewrite C85_dropout. unfold rnn_build. rewrite EI. cbn [rbind snd fst]. rewrite MI, RL1.
    replace (map (fun l => RPlain (PDense l)) ds) with (map RPlain (map PDense ds)) by (rewrite map_map; reflexivity).
    unfold stack_data. fold rows. rewrite lift_layers, PL. reflexivity. }
  eexists _, (mkjop (str "QUANTIZE") (str "QUANTIZE") (mkpb [] [nd])), lops, dops, (mkjop (str "DEQUANTIZE") (str "DEQUANTIZE") (mkpb [out] [])).
  split; [exact EB|]. split; [cbn [jt_graph]; rewrite <- app_assoc; reflexivity|]. split; [exact LO|].
  intros FO OK0. destruct (RUN FO) as (lys & M1 & M2).
  assert (OK : Forall op_ok dops).
  { apply Forall_forall. intros op Hop. split; [exact (proj1 (Forall_forall _ _) OK0 op Hop)|]. intros o Ho. exact (SANE op Hop o Ho). }
  assert (IM : implements ds o1 dops out).
  { rewrite <- DD. apply (rlayers_implement c (map PDense ds) (stack_width lst) o1 rows q_i8); rewrite ?DD; assumption. }
  destruct (implements_runs L D ds o1 dops out IM (stack_width lst) q_i8 Sh NO LIP) as (qo & dlys & gs & NOUT & _ & B1 & B2 & B3).
  destruct (build_lifts dops dlys B1) as (dlys' & B1' & LIFT).
  destruct (quant_loads nd q NI) as (lq & Q1 & Q2). destruct (deq_loads out qo NOUT) as (ld & D1 & _ & D2).
  assert (MA : mapM (build_layer rnn_builders) (quant_op nd :: (lops ++ map lift_op dops) ++ [deq_op out]) = Ok (lq :: (lys ++ dlys') ++ [ld])).
  { cbn [mapM]. rewrite Q1. cbn [rbind]. rewrite (mapM_app_ok _ (lops ++ map lift_op dops) [deq_op out] (lys ++ dlys') [ld]); [reflexivity| |].
    - apply mapM_app_ok; assumption.
    - cbn [mapM]. rewrite D1. reflexivity. }
  eexists. split; [apply rnn_loads; [vm_compute; reflexivity|exact MA]|].
  intros T' X ex batch HT' NB SQB HX COV.
  assert (SF : Forall2 (stands_for (node_of nd q) n T' X ex) (map (map (map (quant1 q (pn_zp nd) (pn_scale nd)))) batch) batch).
  { apply quant_stands; [exact NI|exact SQB|]. intros xs x H1 H2. exact (HX xs x H1 H2). }
  assert (E0 : (0 <= ex)%Q).
  { destruct batch as [|xs batch]; [congruence|]. destruct (SQB xs ltac:(now left)) as [LX _]. destruct xs as [|x xs]; [cbn in LX; lia|].
    destruct (HX (x :: xs) x ltac:(now left) ltac:(now left)) as [_ HE]. eapply Qle_trans; [|exact HE].
    eapply Qle_trans; [apply (excess_nonneg nd x)|]. unfold input_err. apply Q.le_max_r. }
  destruct (M2 T' X ex batch _ HT' NB E0 SF COV) as (tr & v & R1 & (m & EV & RES)). rewrite EV in R1. clear v EV.
  set (err := stack_err Ls Ds Lt Dt lst lops X ex T' (T' - 1)) in *.
  assert (CH : exists yq, Forall2 (chain gs) m yq /\
    Forall2 (fun xs y => near out qo (cert L D ds dops (last (stack_seq fn lst xs) []) err) (rnn_float fn lst ds xs) y) batch yq).
  { assert (LB : forall xs, In xs batch -> length (last (stack_seq fn lst xs) []) = stack_width lst).
    { intros xs Hx. apply (stack_last_length fn lst n false); [exact ST|]. rewrite (proj1 (SQB xs Hx)). exact HT'. }
    clear -RES B3 LB. induction RES as [|xs row batch m H _ IH].
    - exists []. split; constructor.
    - destruct IH as (yq & I1 & I2); [intros; apply LB; now right|].
      destruct (B3 _ row err H (LB xs ltac:(now left))) as (y & Y1 & Y2). exists (y :: yq). split; constructor; assumption. }
  destruct CH as (yq & C1 & C2).
  assert (NM : m <> []) by (intros ->; inversion RES; subst; congruence).
  destruct (chain_runs dlys gs B2 m yq NM C1) as (t2 & R2').
  pose proof (lift_runs _ _ LIFT _ _ _ R2') as R3.
  pose proof (runs_app _ _ _ _ _ _ _ R1 R3) as R4.
  exists (map (map (dequant1 (pn_zp out) (pn_scale out))) yq). split.
  { unfold rnn_infer.
    assert (R5 : runs (lq :: (lys ++ dlys') ++ [ld]) (RF batch) (RI (map (map (map (quant1 q (pn_zp nd) (pn_scale nd)))) batch) :: (tr ++ map R2 t2) ++ [R2 (VF (map (map (dequant1 (pn_zp out) (pn_scale out))) yq))])
                   (R2 (VF (map (map (dequant1 (pn_zp out) (pn_scale out))) yq)))).
    { econstructor; [apply Q2|]. eapply runs_app; [exact R4|]. econstructor; [apply D2|constructor]. }
    rewrite (proj1 (C20_infer_composes _ no_toi8r (mkseq true (jn_scale (mkjnode None None)) (jn_zp (mkjnode None None)) (lq :: (lys ++ dlys') ++ [ld]) []) (RF batch) _ _ eq_refl) R5). reflexivity. }
  clear -C2 NOUT. induction C2 as [|x y batch yq H _ IH]; cbn [map]; constructor; [|exact IH].
  exact (near_within _ _ _ _ _ NOUT H).
Qed.

(** A model whose last LSTM layer returns sequences, with no dense layer: the engine returns all hidden states, each within the bound
    of its step. *)
Theorem C85_sequences : forall fn c ls lst n T data Ls Ds Lt Dt,
  model_is ls lst [] -> rnn_ready c true lst [] n T data -> bounded_lip (fn_sig fn) Ls Ds -> bounded_lip (fn_tanh fn) Lt Dt ->
  exists j qop lops dq, rnn_build fn c ls data = Ok j /\ jt_graph j = lift_op qop :: lops ++ [lift_op dq] /\ length lops = length lst /\
    (stack_file_ok lst lops ->
     exists net, rnn_load j = Ok net /\
     forall T' X ex batch, (0 < T')%nat -> batch <> [] -> sequences n T' batch ->
       (forall xs x, In xs batch -> In x xs -> (abssum x <= X)%Q /\ (input_err qop x <= ex)%Q) ->
       (forall xs, In xs batch -> stack_covered fn T lst data xs) ->
     exists Y, rnn_infer net batch = Ok (RF Y) /\
       Forall2 (fun xs ys => length ys = T' /\ forall t, (t < T')%nat ->
         within (stack_err Ls Ds Lt Dt lst lops X ex T' t) (nth t ys []) (nth t (stack_seq fn lst xs) [])) batch Y).
Proof.
  intros fn c ls lst n T data Ls Ds Lt Dt MI [(q & P & SI) HT ND SQ ST Sh G] BS BT.
  destruct (stack_pos _ _ _ ST) as [Hn NL].
  destruct (sequences_flat n T data HT ND SQ) as [NF LF].
  destruct (pipe_input_ok (c_quantize c) q (concat data) n P (short_narrow _ SI) NF Hn LF) as (nd & EI & NI & _).
  destruct (stack_ok fn c true Ls Ds Lt Dt BS BT lst n nd q T data ST NI SI HT ND SQ) as (lops & out & LO & NO & _ & RL1 & RUN).
  assert (EB : rnn_build fn c ls data = Ok (mkjnet (str "tflite") (quant_op nd :: lops ++ [deq_op out])
                 [Some (mkjnode None None)] [Some (mkjnode None None)])).
  { rewrite C85_dropout. unfold rnn_build. rewrite EI. cbn [rbind snd fst]. rewrite MI, RL1. cbn [map rnn_layers rbind fst snd]. rewrite app_nil_r. reflexivity. }
  eexists _, (mkjop (str "QUANTIZE") (str "QUANTIZE") (mkpb [] [nd])), lops, (mkjop (str "DEQUANTIZE") (str "DEQUANTIZE") (mkpb [out] [])).
  split; [exact EB|]. split; [reflexivity|]. split; [exact LO|].
  intros FO. destruct (RUN FO) as (lys & M1 & M2).
  destruct (quant_loads nd q NI) as (lq & Q1 & Q2). destruct (deq_loads out q_i8 NO) as (ld & D1 & D2 & _).
  assert (MA : mapM (build_layer rnn_builders) (quant_op nd :: lops ++ [deq_op out]) = Ok (lq :: lys ++ [ld])).
  { cbn [mapM]. rewrite Q1. cbn [rbind]. rewrite (mapM_app_ok _ lops [deq_op out] lys [ld] M1); [reflexivity|]. cbn [mapM]. rewrite D1. reflexivity. }
  eexists. split; [apply rnn_loads; [vm_compute; reflexivity|exact MA]|].
  intros T' X ex batch HT' NB SQB HX COV.
  assert (SF : Forall2 (stands_for (node_of nd q) n T' X ex) (map (map (map (quant1 q (pn_zp nd) (pn_scale nd)))) batch) batch).
  { apply quant_stands; [exact NI|exact SQB|]. intros xs x H1 H2. exact (HX xs x H1 H2). }
  assert (E0 : (0 <= ex)%Q).
  { destruct batch as [|xs batch]; [congruence|]. destruct (SQB xs ltac:(now left)) as [LX _]. destruct xs as [|x xs]; [cbn in LX; lia|].
    destruct (HX (x :: xs) x ltac:(now left) ltac:(now left)) as [_ HE]. eapply Qle_trans; [|exact HE].
    eapply Qle_trans; [apply (excess_nonneg nd x)|]. unfold input_err. apply Q.le_max_r. }
  destruct (M2 T' X ex batch _ HT' NB E0 SF COV) as (tr & v & R1 & (m & EV & RES)). rewrite EV in R1. clear v EV.
  exists (map (map (map (dequant1 (pn_zp out) (pn_scale out)))) m). split.
  { unfold rnn_infer. set (Y := map (map (map (dequant1 (pn_zp out) (pn_scale out)))) m).
    assert (R5 : runs (lq :: lys ++ [ld]) (RF batch) (RI (map (map (map (quant1 q (pn_zp nd) (pn_scale nd)))) batch) :: tr ++ [RF Y]) (RF Y)).
    { econstructor; [apply Q2|]. eapply runs_app; [exact R1|]. econstructor; [apply D2|constructor]. }
    rewrite (proj1 (C20_infer_composes _ no_toi8r (mkseq true (jn_scale (mkjnode None None)) (jn_zp (mkjnode None None)) (lq :: lys ++ [ld]) []) (RF batch) _ _ eq_refl) R5). reflexivity. }
  clear -RES NO. induction RES as [|x y batch yq (H1 & H2) _ IH]; cbn [map]; constructor; [|exact IH].
  split; [now rewrite map_length|]. intros t Ht. set (h := dequant1 (pn_zp out) (pn_scale out)).
  change [] with (map h []) at 1. rewrite map_nth. exact (near_within _ _ _ _ _ NO (H2 t Ht)).
Qed.

(** The calibration samples are covered, if the sequences are no longer than the narrowest LSTM layer is wide (C62: longer ones need not be). *)
Theorem C85_calibration_covered : forall fn sq lst n T data xs, lstm_stack sq n lst -> (0 < T)%nat -> sequences n T data -> In xs data ->
  (forall l, In l lst -> (T <= kl_units l)%nat) -> stack_covered fn T lst data xs.
Proof.
  intros fn sq. induction lst as [|l lst IH]; intros n T data xs ST HT SQ Hx HU; [exact Logic.I|].
  assert (LL : lstm_layer n l) by (destruct lst; apply ST).
  assert (ND : data <> []) by (intros ->; destruct Hx).
  split.
  - apply C62_calibration_covered; [eapply layer_lstm_shaped; eassumption|exact Hx|apply HU; now left].
  - destruct lst as [|l2 lst]; [exact Logic.I|]. destruct ST as (_ & _ & ST).
    apply (IH (kl_units l)); [exact ST|exact HT|eapply seq_sequences; exact SQ|now apply in_map|intros; apply HU; now right].
Qed.

(** ** What does not work *)
Lemma lstm_op_keeps op ly : (exists ins out, jo_body op = RL ins out true) -> build_layer rnn_builders op = Ok ly -> forall m v, ly (RI m) = Ok v -> exists m', v = RI m'.
Proof.
  intros (ins & out & EB) B m v E. unfold build_layer in B. destruct (build_layer_kind (jo_type op)) as [k|]; [|discriminate B]. cbn [rbind] in B.
  rewrite EB in B. destruct k; cbn [rnn_builders b_tflite] in B; try discriminate B.
  unfold ie_lstm in B. destruct (lstm_from_model ins out true) as [g|] eqn:FM; [|discriminate B]. cbn [rbind] in B.
  match type of B with Ok ?f = _ => assert (EL : ly = f) by congruence end. rewrite EL in E. clear B EL.
  unfold lstm_from_model in FM. destruct (length ins <? 22)%nat; [discriminate FM|]. destruct (length ins <? 32)%nat; [discriminate FM|]. cbv zeta in FM. apply build_seq in FM.
  destruct (lstm_infer g (steps m) m) as [[o rec]|] eqn:EI; [|discriminate E]. cbn [rbind fst] in E.
  apply infer_inv in EI as (_ & _ & EO). rewrite FM in EO. subst o. eexists. symmetry. apply (f_equal (fun r => match r with Ok a => a | Err _ => v end)) in E. exact E.
Qed.
Lemma dense_first c l inp data ops out d' : rnn_dense c l inp data = Ok (ops, out, d') -> exists b nm rest, ops = mkjop (str "FULLY_CONNECTED") nm (RB b) :: rest.
Proof.
  unfold rnn_dense. cbv zeta. set (rows := match data with D2 m => m | D3 m => concat m end). intros E.
  destruct (pipe_dense (layer_cfg c (kd_name l)) l inp rows) as [[[ops1 out1] d1]|] eqn:PD; [|discriminate E]. cbn [rbind] in E.
  assert (EO : ops = map lift_op ops1) by congruence. rewrite EO. clear E EO.
  unfold pipe_dense in PD. destruct (layer_cfg c (kd_name l)) as [| d |]; try discriminate PD.
  repeat match type of PD with
    | (do _ <- ?x; _) = _ => destruct x; [|discriminate PD]; cbn [rbind] in PD
    | (let _ := _ in _) = _ => cbv zeta in PD
    end.
  destruct (d_opt d); [discriminate PD|].
  match type of PD with (do _ <- ?x; _) = _ => destruct x as [[[ba act] d2]|]; [|discriminate PD] end. cbn [rbind] in PD. cbv zeta in PD.
  destruct act as [[op o]|]; cbv beta iota in PD.
  - match type of PD with Ok (?a, _, _) = _ => assert (E1 : ops1 = a) by congruence end. rewrite E1. eexists _, _, _. reflexivity.
  - match type of PD with Ok (?a, _, _) = _ => assert (E1 : ops1 = a) by congruence end. rewrite E1. eexists _, _, _. reflexivity.
Qed.
Lemma dense_reached fn c l post : forall pre inp data ops out, (forall k, In (RLstm k) pre -> kl_seq k = true) ->
  rnn_layers fn c (pre ++ RPlain (PDense l) :: post) inp data = Ok (ops, out) ->
  exists lops b nm rest, ops = lops ++ mkjop (str "FULLY_CONNECTED") nm (RB b) :: rest /\ Forall (fun op => exists ins o, jo_body op = RL ins o true) lops.
Proof.
  induction pre as [|r pre IH]; intros inp data ops out HS E.
  - cbn [app rnn_layers] in E. destruct (rnn_dense c l inp data) as [[[ops1 o1] d1]|] eqn:RD; [|discriminate E]. cbn [rbind] in E.
    destruct (rnn_layers fn c post o1 d1) as [y|]; [|discriminate E]. cbn [rbind] in E.
    destruct (dense_first _ _ _ _ _ _ _ RD) as (b & nm & rest & ->). exists [], b, nm, (rest ++ fst y). split; [|constructor].
    assert (X : ops = (mkjop (str "FULLY_CONNECTED") nm (RB b) :: rest) ++ fst y) by congruence. exact X.
  - destruct r as [k|[k|]]; cbn [app rnn_layers] in E.
    + unfold rnn_lstm in E. destruct data as [m|m]; [discriminate E|]. destruct (as_node inp) as [i|]; [|discriminate E]. cbn [rbind] in E.
      destruct (klstm_quantize fn ldt_default k i (steps m) m) as [e|]; [|discriminate E]. cbn [rbind] in E.
      destruct (rnn_layers fn c (pre ++ RPlain (PDense l) :: post) (as_pnode (le_out e) [kl_units k]) (le_data e)) as [[ops2 o2]|] eqn:R2'; [|discriminate E]. cbn [rbind fst snd] in E.
      destruct (IH _ _ _ _ (fun k' H => HS k' (or_intror H)) R2') as (lops & b & nm & rest & -> & F).
      match type of E with Ok (?op :: _, _) = _ => exists (op :: lops), b, nm, rest end. split; [cbn [app]; congruence|]. constructor; [|exact F].
      cbn [jo_body]. rewrite (HS k ltac:(now left)). eexists _, _. reflexivity.
    + destruct (rnn_dense c k inp data) as [[[ops1 o1] d1]|] eqn:RD; [|discriminate E]. cbn [rbind] in E.
      destruct (rnn_layers fn c (pre ++ RPlain (PDense l) :: post) o1 d1) as [y|]; [|discriminate E]. cbn [rbind] in E.
      destruct (dense_first _ _ _ _ _ _ _ RD) as (b & nm & rest & ->). exists [], b, nm, (rest ++ fst y). split; [|constructor].
      assert (X : ops = (mkjop (str "FULLY_CONNECTED") nm (RB b) :: rest) ++ fst y) by congruence. exact X.
    + exact (IH _ _ _ _ (fun k' H => HS k' (or_intror H)) E).
Qed.
(** A dense layer on sequences (after LSTM layers that all return sequences, or directly on the input) is accepted by the quantizer,
    exported and loaded, but the engine's dense layer refuses arrays with three axes: no inference on the file ever succeeds. *)
Theorem C85_dense_on_sequences : forall fn c pre l post data j net batch y,
  (forall k, In (RLstm k) pre -> kl_seq k = true) ->
  rnn_build fn c (pre ++ RPlain (PDense l) :: post) data = Ok j -> rnn_load j = Ok net -> rnn_infer net batch <> Ok y.
Proof.
  intros fn c pre l post data j net batch y HS EB EL EI.
  unfold rnn_build in EB. destruct (pipe_input (c_quantize c) (concat data)) as [[qop nd]|] eqn:PI; [|discriminate EB]. cbn [rbind fst snd] in EB.
  destruct (rnn_layers fn c (pre ++ RPlain (PDense l) :: post) nd (D3 data)) as [[ops out]|] eqn:RLY; [|discriminate EB]. cbn [rbind fst snd] in EB.
  destruct (dense_reached _ _ _ _ _ _ _ _ _ HS RLY) as (lops & b & nm & rest & -> & FL).
  match type of EB with Ok ?a = _ => assert (EJ : j = a) by congruence end. rewrite EJ in EL. clear EB EJ j.
  assert (QT : jo_type qop = str "QUANTIZE" /\ jo_name qop = str "QUANTIZE").
  { unfold pipe_input in PI. repeat match type of PI with (do _ <- ?x; _) = _ => destruct x; [|discriminate PI]; cbn [rbind] in PI end. cbv zeta in PI.
    match type of PI with Ok (?a, _) = _ => assert (E : qop = a) by congruence end. rewrite E. split; reflexivity. }
  destruct QT as [QT QN].
  unfold rnn_load, seq_init in EL. cbn [jt_input jt_output jt_graph jt_engine] in EL.
  change (py_index [Some (mkjnode None None)] 0) with (Ok (Some (mkjnode None None))) in EL. cbn [rbind] in EL.
  match type of EL with context [py_index (?a :: ?r) 0] => change (py_index (a :: r) 0) with (Ok a) in EL end. cbn [rbind] in EL.
  assert (get_engine rnn_builders (str "tflite") = Ok (build_layer rnn_builders)) as GE by reflexivity. rewrite GE in EL. clear GE. cbn [rbind] in EL.
  match type of EL with context [mapM ?f ?g] => destruct (mapM f g) as [lys|] eqn:MM; [|discriminate EL] end. cbn [rbind] in EL.
  assert (CQ : contains (chars_of "QUANT") (upper (jo_name (lift_op qop))) = true) by (cbn [lift_op jo_name]; rewrite QN; vm_compute; reflexivity).
  rewrite CQ in EL. match type of EL with Ok ?a = _ => assert (EN : net = a) by congruence end. rewrite EN in EI. clear EL EN net CQ.
  unfold rnn_infer in EI.
  match type of EI with snd (seq_infer _ ?nn ?x) = _ => set (net := nn) in *; destruct (seq_infer no_toi8r net x) as [n' r] eqn:SI end.
  cbn [snd] in EI. subst r.
  assert (RR : exists t, runs lys (RF batch) t y).
  { unfold seq_infer in SI. change (sn_quant net) with true in SI. cbv beta iota zeta in SI.
    change (sn_layers net) with lys in SI. destruct (run_layers lys (RF batch) []) as [i r] eqn:RUN.
    assert (ER : r = Ok y) by (cbn in SI; congruence). subst r. apply run_layers_runs_inv in RUN as (t & _ & R). exists t. exact R. }
  destruct RR as (t & RR). apply mapM_inv in MM.
  inversion MM as [|? lq ? lys1 BQ MM1]; subst. inversion RR as [|? ? ? v0 ? ? V0 RR1]; subst. clear RR MM.
  assert (Q0 : exists m, v0 = RI m).
  { unfold build_layer in BQ. cbn [lift_op jo_type jo_body] in BQ. rewrite QT in BQ.
    assert (BK : build_layer_kind (str "QUANTIZE") = Ok KQuantize) by (vm_compute; reflexivity). rewrite BK in BQ. cbn [rbind rnn_builders b_tflite] in BQ.
    destruct (ie_quantize (jo_body qop)) as [l0|]; [|discriminate BQ]. cbn [rbind] in BQ. assert (EL : lq = each_int l0) by congruence. rewrite EL in V0.
    cbn [each_int samples_of] in V0. destruct (mapM l0 (map VF batch)) as [ys|]; [|discriminate V0]. cbn [rbind] in V0. eexists. assert (X : RI (map asI ys) = v0) by congruence. symmetry. exact X. }
  destruct Q0 as (m & ->). clear V0 BQ. rewrite <- app_assoc in MM1. cbn [app] in MM1.
  clear net SI RLY. revert m lys1 trace MM1 RR1. induction FL as [|op lops HO _ IH]; intros m lys1 trace MM1 RR1; cbn [app] in MM1.
  - inversion MM1 as [|? lf ? lys2 BF MM2]; subst. inversion RR1 as [|? ? ? v1 ? ? V1 RR2]; subst.
    assert (BF1 : (do l0 <- ie_fc b; Ok (flat_only l0)) = Ok lf) by exact BF. clear BF. rename BF1 into BF.

    destruct (ie_fc b) as [l0|]; [|discriminate BF]. cbn [rbind] in BF. assert (EL : lf = flat_only l0) by congruence. rewrite EL in V1. discriminate V1.
  - inversion MM1 as [|? lf ? lys2 BF MM2]; subst. inversion RR1 as [|? ? ? v1 ? ? V1 RR2]; subst.
    destruct (lstm_op_keeps op lf HO BF m v1 V1) as (m' & ->). exact (IH m' lys2 _ MM2 RR2).
Qed.
(** A table layer of any loaded file refuses a batch of no sequences (np.vectorize on an array of size 0). *)
Theorem C85_empty_batch : forall op ly, jo_type op = str "TANHLUT" \/ jo_type op = str "SIGMOIDLUT" ->
  build_layer rnn_builders op = Ok ly -> ly (RI []) = Err EValueError /\ ly (RF []) = Err EValueError.
Proof.
  intros op ly T B. unfold build_layer in B.
  assert (K : exists k, build_layer_kind (jo_type op) = Ok k /\ (k = KTanhLUT \/ k = KSigmoidLUT)).
  { destruct T as [-> | ->]; eexists; (split; [vm_compute; reflexivity|]); auto. }
  destruct K as (k & K & KK). rewrite K in B. cbn [rbind] in B.
  assert (X : exists p l, ie_lut p = Ok l /\ ly = each_lut l).
  { destruct KK as [-> | ->]; cbn [rnn_builders b_tflite] in B; (destruct (jo_body op) as [p|? ? ?]; [|discriminate B]);
      (destruct (ie_lut p) as [l|] eqn:E; [|discriminate B]); cbn [rbind] in B; exists p, l; (split; [exact E|]); congruence. }
  destruct X as (p & l & _ & ->). split; reflexivity.
Qed.
(** The layer after a dense layer on sequences is calibrated on that layer's output at every step of every sample. *)
Theorem C85_dense_data : forall c l inp m n ops out d' d qk q qb, layer_cfg c (kd_name l) = CDense d -> good_cfg d qk q qb ->
  plain_act l \/ table_act l \/ relu_act l -> layer_shaped n l -> (forall xs x, In xs m -> In x xs -> length x = n) ->
  rnn_dense c l inp (D3 m) = Ok (ops, out, d') -> d' = D3 (map (map (float_layer l)) m).
Proof.
  intros c l inp m n ops out d' d qk q qb EC G HA Sh LM E. unfold rnn_dense in E.
  destruct (pipe_dense (layer_cfg c (kd_name l)) l inp (concat m)) as [[[ops1 out1] rows]|] eqn:PD; [|discriminate E]. cbn [rbind] in E.
  assert (LD : forall r, In r (concat m) -> length r = n) by (intros r Hr; apply in_concat in Hr as (xs & H1 & H2); exact (LM xs r H1 H2)).
  destruct (pipe_dense_inv c l inp (concat m) d qk q qb n ops1 out1 rows EC G HA Sh LD PD) as [ER _]. rewrite ER in E.
  assert (RG : forall (f : list Q -> list Q) s, regroup s (map f (concat s)) = map (map f) s).
  { clear. intros f s. induction s as [|a s IH]; [reflexivity|]. cbn [concat regroup map]. rewrite map_app.
    rewrite firstn_app, skipn_app, map_length, Nat.sub_diag. rewrite firstn_all2, skipn_all2 by (rewrite map_length; lia). cbn [firstn skipn app]. rewrite app_nil_r. f_equal. exact IH. }
  rewrite RG in E. congruence.
Qed.
(** A loss function and an equalizer or rounding configuration cannot be given for a model with an LSTM layer: the equalizer pass
    raises AttributeError, and the rounding pass never completes. *)
Theorem C85_tuning : forall W optimize round eq ada ls l (w : W), In (RLstm l) ls ->
  (eq = true -> rnn_tune optimize round eq ada ls w = Err EAttributeError) /\
  (eq = true \/ ada = true -> forall w', rnn_tune optimize round eq ada ls w <> Ok w') /\
  (eq = false -> ada = true -> (forall d u, In (RPlain (PDense d)) ls -> exists u', round d u = Ok u') -> rnn_tune optimize round eq ada ls w = Err EAttributeError).
Proof.
  intros W optimize round eq ada ls l w HI.
  assert (B : forall acc, bundle ls acc = Err EAttributeError).
  { clear -HI. induction ls as [|r ls IH]; [destruct HI|]. intros acc. destruct HI as [->|HI]; [reflexivity|].
    destruct r as [k|[k|]]; cbn [bundle]; [reflexivity|apply IH, HI|apply IH, HI]. }
  assert (R : forall u u', round_all round ls u <> Ok u').
  { clear -HI. induction ls as [|r ls IH]; [destruct HI|]. intros u u'. destruct HI as [->|HI]; [discriminate|].
    destruct r as [k|[k|]]; cbn [round_all]; [discriminate| |apply IH, HI]. destruct (round k u) as [u1|]; [|discriminate]. cbn [rbind]. apply IH, HI. }
  split; [|split].
  - intros ->. unfold rnn_tune. rewrite B. reflexivity.
  - intros H w' E. unfold rnn_tune in E. destruct eq.
    + rewrite B in E. discriminate E.
    + cbn [rbind] in E. destruct H as [H|H]; [discriminate H|]. rewrite H in E. exact (R _ _ E).
  - intros -> -> HR. unfold rnn_tune. cbn [rbind]. revert w. clear -HI HR. induction ls as [|r ls IH]; [destruct HI|]. intros u.
    destruct r as [k|[k|]]; cbn [round_all]; [reflexivity| |].
    + destruct HI as [HI|HI]; [discriminate HI|]. destruct (HR k u ltac:(now left)) as (u1 & ->). cbn [rbind]. apply IH; [exact HI|intros; apply HR; now right].
    + destruct HI as [HI|HI]; [discriminate HI|]. apply IH; [exact HI|intros; apply HR; now right].
Qed.

(** ** Example: two LSTM layers of one unit, dropout, one dense unit; two samples of one step; default configuration *)
Definition rn_l1 : klstm := mkkl (str "l1") 1 [[1; 1; 1; 1]]%Q [[0; 0; 0; 0]]%Q (Some [1; 1; 0; 1]%Q) true.
Definition rn_l2 : klstm := mkkl (str "l2") 1 [[1; 1; 1; 1]]%Q [[0; 0; 0; 0]]%Q (Some [1; 1; 0; 1]%Q) false.
Definition rn_d : kdense := mkkd (str "d") 1 [[1#1]]%Q (Some [1#4]%Q) (str "linear") (fun x => x).
Definition rn_net : list rlyr := [RLstm rn_l1; RPlain PSkip; RLstm rn_l2; RPlain PSkip; RPlain (PDense rn_d)].
Definition rn_samples : list (list (list Q)) := [[[1]]; [[-1#2]]]%Q.
Lemma rn_layer l : l = rn_l1 \/ l = rn_l2 -> lstm_layer 1 l.
Proof.
  intros [->| ->]; constructor; try reflexivity; try (cbn; lia); try (intros r [<-|[]]; reflexivity).
  all: eexists; split; [reflexivity|reflexivity].
Qed.
Example C85_example_ready : model_is rn_net [rn_l1; rn_l2] [rn_d] /\ rnn_ready cfg_default false [rn_l1; rn_l2] [rn_d] 1 1 rn_samples /\
  relu_calibrated [rn_d] (map (fun xs => last (stack_seq hfn [rn_l1; rn_l2] xs) []) rn_samples) /\
  forall xs, In xs rn_samples -> stack_covered hfn 1 [rn_l1; rn_l2] rn_samples xs.
Proof.
  assert (ST : lstm_stack false 1 [rn_l1; rn_l2]).
  { split; [apply rn_layer; now left|]. split; [reflexivity|]. split; [apply rn_layer; now right|reflexivity]. }
  assert (SQ : sequences 1 1 rn_samples). { intros xs [<-|[<-|[]]]; (split; [reflexivity|]; intros x [<-|[]]; reflexivity). }
  split; [reflexivity|]. split.
  { constructor; [|lia|discriminate|exact SQ|exact ST| |].
    - exists int8. split; [vm_compute; reflexivity|exact (proj2 ex_in_good)].
    - cbn [shaped stack_width map last kl_units rn_l1 rn_l2 rn_d kd_units kd_kernel kd_bias]. repeat split; try lia; try (intros r [<-|[]]; reflexivity).
      intros b Hb. assert (b = [1#4]%Q) by congruence. subst. reflexivity.
    - constructor; [|constructor]. split; [left; left; vm_compute; reflexivity|]. exists dense_default, int8, int8, int32. split; [reflexivity|exact PropPipe.default_good]. }
  split.
  { split; [|exact Logic.I]. intros [H|H]; vm_compute in H; discriminate H. }
  intros xs Hx. apply (C85_calibration_covered hfn false _ 1); [exact ST|lia|exact SQ|exact Hx|]. intros l [<-|[<-|[]]]; cbn; lia.
Qed.
Definition lstm_file_okb (l : klstm) (e : lstm_export) : bool :=
  forallb (fun g => forallb (fun j => (gmin int32 <? code (x_bias e g) 0 j) && (code (x_bias e g) 0 j <? gmax int32)) (seq 0 (kl_units l)) &&
    Qle_bool (n_scale (x_kernel e g) * n_scale (x_in e) / (n_scale (le_out e) * n_scale (x_rec e g)) * inject_Z (Z.of_nat (length (kl_K l)) + 1)) (inject_Z (2 ^ 29))) (seq 0 4)
  && Qle_bool (n_scale (x_gate e 1)) (inject_Z (2 ^ 28))
  && Qle_bool (n_scale (x_gate e 0) * n_scale (x_gate e 2) / n_scale (x_cell e)) (inject_Z (2 ^ 28))
  && Qle_bool (n_scale (x_gate e 3) * n_scale (x_act e) / n_scale (le_out e)) (inject_Z (2 ^ 28))
  && (Z.of_nat (kl_units l) <=? 2 ^ 29) && (Z.of_nat (length (kl_K l)) <=? 2 ^ 29).
Lemma lstm_file_okb_sound l e : lstm_file_okb l e = true -> lstm_file_ok l int32 e.
Proof.
  unfold lstm_file_okb. intros C.
  apply andb_prop in C as [C C7]. apply andb_prop in C as [C C6]. apply andb_prop in C as [C C5]. apply andb_prop in C as [C C4]. apply andb_prop in C as [C C3].
  rewrite forallb_forall in C. constructor.
  - intros g j Hg Hj. specialize (C g ltac:(apply in_seq; lia)). apply andb_prop in C as [C _]. rewrite forallb_forall in C.
    specialize (C j ltac:(apply in_seq; lia)). apply andb_prop in C as [A B]. apply Z.ltb_lt in A, B. split; assumption.
  - intros g Hg. specialize (C g ltac:(apply in_seq; lia)). apply andb_prop in C as [_ C]. apply qle_dec_true, C.
  - apply qle_dec_true, C3.
  - apply qle_dec_true, C4.
  - apply qle_dec_true, C5.
  - apply Z.leb_le, C6.
  - apply Z.leb_le, C7.
Qed.
Definition plain_op (op : jop rbody) : list (jop pbody) := match jo_body op with RB b => [mkjop (jo_type op) (jo_name op) b] | RL _ _ _ => [] end.
Lemma plain_lift ops : flat_map plain_op (map lift_op ops) = ops.
Proof. induction ops as [|[t n b] ops IH]; [reflexivity|]. cbn [map flat_map plain_op lift_op jo_body jo_type jo_name app]. now rewrite IH. Qed.
Lemma F2_forallb {A B} (P : A -> B -> Prop) (f : A -> B -> bool) (a : list A) (b : list B) : (forall x y, f x y = true -> P x y) ->
  length b = length a -> forallb (fun p => f (fst p) (snd p)) (combine a b) = true -> Forall2 P a b.
Proof.
  intros S. revert b. induction a as [|x a IH]; intros [|y b] L H; try discriminate L; constructor; cbn [combine forallb fst snd] in H; apply andb_prop in H as [H1 H2].
  - apply S, H1.
  - apply IH; [cbn in L; lia|exact H2].
Qed.
(** the quantities of the file are as C85_error wants them; outputs are 1.2402 and 0.1667, the float network gives 1.25 and 0.154 *)
Example C85_example : exists j qop lops dops dq net Y, rnn_build hfn cfg_default rn_net rn_samples = Ok j /\
  jt_graph j = lift_op qop :: lops ++ map lift_op dops ++ [lift_op dq] /\ length lops = 2%nat /\
  stack_file_ok [rn_l1; rn_l2] lops /\ Forall fc_op_ok dops /\ rnn_load j = Ok net /\ rnn_infer net rn_samples = Ok (R2 (VF Y)) /\
  map (map (fun v => Qround_even (v * 10000))) Y = [[12402]; [1667]] /\
  map (fun xs => map (fun v => Qround_even (v * 10000)) (rnn_float hfn [rn_l1; rn_l2] [rn_d] xs)) rn_samples = [[12500]; [1540]] /\
  (forall xs x, In xs rn_samples -> In x xs -> (abssum x <= 1)%Q /\ (input_err qop x <= 1#200)%Q).
Proof.
  destruct C85_example_ready as (MI & RR & RC & _).
  destruct (C85_error hfn cfg_default rn_net _ _ _ _ _ idf idd (1#4) 0 1 0 MI RR RC hsig_lip htanh_lip) as (j & qop & lops & dops & dq & EB & EG & LL & _).
  { intros l [<-|[]] H. vm_compute in H. discriminate H. }
  assert (K : match rnn_build hfn cfg_default rn_net rn_samples with
    | Ok j => match jt_graph j with
              | q0 :: rest => let lo := firstn 2 rest in let dd := removelast (skipn 2 rest) in
                  forallb (fun p => lstm_file_okb (fst p) (op_lstm (snd p))) (combine [rn_l1; rn_l2] lo) && forallb fc_op_okb (flat_map plain_op dd) &&
                  match plain_op q0 with [q1] => forallb (fun xs => forallb (fun x => Qle_bool (abssum x) 1 && Qle_bool (input_err q1 x) (1#200)) xs) rn_samples | _ => false end
              | [] => false end &&
              match rnn_load j with Ok n => match rnn_infer n rn_samples with Ok (R2 (VF [[a]; [b]])) =>
                  (Qround_even (a * 10000) =? 12402) && (Qround_even (b * 10000) =? 1667) | _ => false end | _ => false end
    | _ => false end = true) by (vm_compute; reflexivity).
  rewrite EB in K. apply andb_prop in K as [K1 K2].
  destruct (rnn_load j) as [net|] eqn:EL; [|discriminate K2]. destruct (rnn_infer net rn_samples) as [v|] eqn:EI; [|discriminate K2].
  destruct v as [v| |]; try discriminate K2. destruct v as [Y|]; [|discriminate K2].
  exists j, qop, lops, dops, dq, net, Y. split; [exact EB|]. split; [exact EG|]. split; [exact LL|].
  rewrite EG in K1. cbv zeta in K1. cbn [length] in LL.
  rewrite firstn_app, LL in K1. rewrite <- LL in K1 at 1. rewrite firstn_all, Nat.sub_diag in K1. cbn [firstn] in K1. rewrite app_nil_r in K1.
  rewrite skipn_app, LL in K1. rewrite <- LL in K1 at 1. rewrite skipn_all, Nat.sub_diag in K1. cbn [skipn app] in K1. rewrite removelast_last in K1. rewrite plain_lift in K1.
  apply andb_prop in K1 as [K1 K4]. apply andb_prop in K1 as [K1 K3].
  split. { apply (F2_forallb _ (fun l op => lstm_file_okb l (op_lstm op))); [intros; now apply lstm_file_okb_sound|rewrite LL; reflexivity|exact K1]. }
  split. { apply Forall_forall. intros o Ho. apply fc_op_okb_sound. rewrite forallb_forall in K3. now apply K3. }
  split; [exact EL|]. split; [exact EI|].
  split. { destruct Y as [|[|a [|]] [|[|b [|]] [|]]]; try discriminate K2. apply andb_prop in K2 as [A B]. apply Z.eqb_eq in A, B. cbn [map]. now rewrite A, B. }
  split; [vm_compute; reflexivity|].
  assert (QE : plain_op (lift_op qop) = [qop]) by (destruct qop; reflexivity). rewrite QE in K4. rewrite forallb_forall in K4.
  intros xs x H1 H2. specialize (K4 xs H1). rewrite forallb_forall in K4. specialize (K4 x H2). apply andb_prop in K4 as [A B]. split; apply qle_dec_true; assumption.
Qed.
(** the same LSTM followed directly by a dense layer: built, loaded, unusable *)
Example C85_dense_on_sequences_example : exists j net, rnn_build hfn cfg_default [RLstm rn_l1; RPlain (PDense rn_d)] rn_samples = Ok j /\
  rnn_load j = Ok net /\ rnn_infer net rn_samples = Err EAssertionError.
Proof.
  assert (K : match rnn_build hfn cfg_default [RLstm rn_l1; RPlain (PDense rn_d)] rn_samples with
    | Ok j => match rnn_load j with Ok n => match rnn_infer n rn_samples with Err EAssertionError => true | _ => false end | _ => false end
    | _ => false end = true) by (vm_compute; reflexivity).
  destruct (rnn_build hfn cfg_default [RLstm rn_l1; RPlain (PDense rn_d)] rn_samples) as [j|]; [|discriminate K].
  destruct (rnn_load j) as [net|] eqn:EL; [|discriminate K]. exists j, net. split; [reflexivity|]. split; [exact EL|].
  destruct (rnn_infer net rn_samples) as [v|e]; [discriminate K|]. destruct e; try discriminate K. reflexivity.
Qed.
