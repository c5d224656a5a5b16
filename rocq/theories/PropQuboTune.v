(** C84: build() with the QUBO rounding optimizer, from the quantized network to the file. *)
From Verif Require Import Base BaseProofs DtypeModel QuantModel QuantProofs LutModel FcModel FcProofs FcLayer EngineModel EngineProofs DistModel BuildModel PipeModel PropCore PropFc
  PropRelu PropDist PipeSpec RPipeSpec PipeProofs RPipeProofs NodeModel PropNode PropEq BfsProofs PropBfs AnnealModel PropAnneal CertSpec PropPipe PropRPipe PropCert
  EqModel ParamAnnealModel ExportModel ExportSpec PropExport TuneModel PropTune QuboModel SpecQubo QuboDeployModel QuboTuneModel.
From Verif Require PropQubo PropQuboDeploy QuboEnergy QuboMore SpecQubo.
From Coq Require Import Lqa Qminmax.
Open Scope Z_scope.
Open Scope list_scope.

(** ** Specification *)
(** calibration rows: at least one, of the model's input width *)
Definition rows_of (n : nat) (X : list (list Q)) : Prop := X <> [] /\ Forall (fun r => length r = n) X.
(** activations the quantizer knows: tables, and those it leaves out of the data (linear, softmax, relu, relu6) *)
Definition known_act (l : kdense) : Prop := is_table l = true \/ mem (upper (kd_act l)) SKIP_FUNCTIONS = true.
(** Mean squared difference, over the rows X, between the float output number j of the layer and the exact integer accumulator that a
    weight row and a bias give in the exported operator, times its scale.  [i], [k]: input and kernel nodes of the file. *)
Definition file_fit (l : kdense) (X : list (list Q)) (q : gdtype) (i k : pnode) (j : nat) (row : list Z) (b : Z) : Q :=
  (sumQ (map (fun r => (nth j (nth r (map (float_layer l) X) []) 0 - pn_scale i * pn_scale k *
           inject_Z (exact_acc (pn_zp i) (pn_zp k) (nth r (map (map (quant1 q (pn_zp i) (pn_scale i))) X) []) row b)) ^ 2)
         (seq 0 (length X))) / inject_Z (Z.of_nat (length X)))%Q.
(** one of the two integers around x *)
Definition next_to (x : Q) (c : Z) : Prop := c = Qfloor x \/ c = Qfloor x + 1.
(** the operator's weights fit the layer's outputs at least as well as every other rounding of the float weights and biases to one of
    the two codes around them *)
Definition best_layer (l : kdense) (X : list (list Q)) (op : jop pbody) : Prop :=
  exists i k b o q rows v, jo_body op = mkpb [i; k; b] [o] /\ parse_dtype (pn_dtype i) = Ok q /\ pn_tensor k = PMat rows /\ pn_tensor b = PVec v /\
    forall j, (j < kd_units l)%nat -> forall (row : list Z) (c : Z), length row = length (kd_kernel l) ->
      (forall a, (a < length row)%nat -> next_to (nth a (column j (kd_kernel l)) 0 / pn_scale k)%Q (nth a row 0 - pn_zp k)) ->
      next_to (bias_at l j / (pn_scale i * pn_scale k))%Q c ->
      (file_fit l X q i k j (nth j rows []) (nth j v 0%Z) <= file_fit l X q i k j row c)%Q.
Fixpoint best_rounded (ls : list kdense) (X : list (list Q)) (g : list (jop pbody)) : Prop :=
  match ls, g with
  | l :: ls', op :: g' => best_layer l X op /\ best_rounded ls' (map (float_layer l) X) (if is_table l then tl g' else g')
  | [], [] => True
  | _, _ => False
  end.
(** what the solver is asked for, per layer (C76): the store [w] is the one the rounding starts from *)
Definition solved (w : world) (a : alayer) : Prop :=
  match a with
  | ADense L smp => PropQuboDeploy.inputs_ok w L /\ PropQuboDeploy.solver_exact w L (length (ql_B L)) smp /\
      PropQuboDeploy.choice_in_range w L (length (hd [] (ql_X L))) (length (ql_B L)) smp
  | APlain => True
  end.

(** ** Data *)
Lemma map2_len n l x : layer_shaped n l -> length (preact l x) = kd_units l.
Proof. intros Sh. unfold preact. rewrite map2_length; [apply kd_w_length|]. rewrite kd_w_length. symmetry. exact (kd_b_length n l Sh). Qed.
Lemma data_rows n l X : layer_shaped n l -> rows_of n X -> rows_of (kd_units l) (layer_data l X).
Proof.
  intros Sh [NE F]. unfold layer_data. split.
  - destruct X; [congruence|]. destruct (mem _ _); discriminate.
  - apply Forall_forall. intros r Hr. destruct (mem _ _).
    + apply in_map_iff in Hr as (x & <- & _). exact (map2_len n l x Sh).
    + apply in_map_iff in Hr as (y & <- & Hy). apply in_map_iff in Hy as (x & <- & _). rewrite map_length. exact (map2_len n l x Sh).
Qed.
Lemma data_float n l X : layer_shaped n l -> rows_of n X -> known_act l -> layer_data l X = map (float_layer l) X.
Proof.
  intros Sh [_ F] K. unfold layer_data. rewrite Forall_forall in F. unfold float_layer.
  assert (E : mem (upper (kd_act l)) SKIP_FUNCTIONS = negb (is_table l)).
  { destruct K as [K|K]; [rewrite K|rewrite K].
    - unfold is_table in K. apply orb_true_iff in K as [K|K]; apply chars_eqb_eq in K; rewrite K; reflexivity.
    - unfold is_table. destruct (chars_eqb _ (str "TANH")) eqn:A; [apply chars_eqb_eq in A; rewrite A in K; discriminate K|].
      destruct (chars_eqb _ (str "SIGMOID")) eqn:B; [apply chars_eqb_eq in B; rewrite B in K; discriminate K|]. reflexivity. }
  rewrite E. destruct (is_table l); cbn [negb].
  - rewrite map_map. apply map_ext_in. intros x Hx. now rewrite (preact_affine n l x Sh (F x Hx)).
  - apply map_ext_in. intros x Hx. exact (preact_affine n l x Sh (F x Hx)).
Qed.

(** ** One layer *)
Lemma bitz_bits f (l : list nat) : Forall (fun x => x = 0 \/ x = 1) (map (fun i => bitz (f i)) l).
Proof. apply Forall_forall. intros x Hx. apply in_map_iff in Hx as (i & <- & _). destruct (f i); [right|left]; reflexivity. Qed.
Lemma set_targets_short w a b t pa pb : set_targets w (a :: b :: t) [pa; pb] = set_targets w [a; b] [pa; pb].
Proof.
  cbn [set_targets]. destruct (set_target w a pa) as [w1|]; [|reflexivity]. cbn [rbind]. destruct (set_target w1 b pb) as [w2|]; [|reflexivity]. cbn [rbind]. destruct t; reflexivity.
Qed.
(** the policies a QUBO returns fit the kernel and the bias, whatever the sampler answers *)
Lemma qubo_policies p w l n t inp X smp : layer_at p w l n (4 * t + 1) -> layer_shaped n l -> rows_of n X ->
  exists ps, Forall2 (fitting w) [TNode (4 * t + 1); TNode (4 * t + 2)] ps /\
    adaround_qubo w (qlayer_of inp t l X) smp = set_targets w [TNode (4 * t + 1); TNode (4 * t + 2)] ps.
Proof.
  intros [(tk & EK & (SK & _) & _) (tb & EB & (SB & _) & _) _ _] Sh [NE F]. set (L := qlayer_of inp t l X).
  assert (I0 : (0 < iN (inst_of w L))%nat) by (cbn; destruct X; [congruence|cbn; lia]).
  assert (I1 : iIn (inst_of w L) = n) by (cbn; destruct X; [congruence|]; exact (Forall_inv F)).
  assert (I2 : iOut (inst_of w L) = kd_units l) by exact (kd_b_length n l Sh).
  unfold adaround_qubo. rewrite (PropQuboDeploy.qubo_dense_ok (inst_of w L) smp I0). rewrite I1, I2. cbn [rbind].
  eexists. split; [|unfold ada_targets; apply set_targets_short].
  replace (S (4 * t + 1)) with (4 * t + 2)%nat in EB by lia.
  constructor; [|constructor; [|constructor]].
  - split.
    + destruct (n_tens (w (4 * t + 1)%nat)) as [x|] eqn:T; [|discriminate EK]. cbn [option_map] in EK. exists x. split; [reflexivity|]. cbn [pt_shape]. assert (t_fp x = tk) by congruence. now rewrite H, SK.
    + unfold bitwise. cbn [pt_flat]. apply Forall_forall. intros x Hx. apply in_concat in Hx as (row & Hr & Hx). apply in_map_iff in Hr as (j & <- & _).
      apply in_map_iff in Hx as (b & <- & _). destruct b; [right|left]; reflexivity.
  - split.
    + destruct (n_tens (w (4 * t + 2)%nat)) as [x|] eqn:T; [|discriminate EB]. cbn [option_map] in EB. exists x. split; [reflexivity|]. cbn [pt_shape]. assert (t_fp x = tb) by congruence. now rewrite H, SB.
    + unfold bitwise. cbn [pt_flat]. apply bitz_bits.
Qed.
(** ** All layers *)
Lemma ada_net_cons w a ls : adaround_net w (a :: ls) = (do w1 <- adaround_layer w a; adaround_net w1 ls).
Proof.
  unfold adaround_net. cbn [fold_left rbind]. destruct (adaround_layer w a) as [w1|e]; [reflexivity|]. cbn [rbind].
  induction ls as [|b ls IH]; [reflexivity|exact IH].
Qed.
Lemma ada_net_app : forall ls ls' w, adaround_net w (ls ++ ls') = (do w1 <- adaround_net w ls; adaround_net w1 ls').
Proof.
  induction ls as [|a ls IH]; intros ls' w; [reflexivity|]. cbn [app]. rewrite !ada_net_cons. destruct (adaround_layer w a) as [w1|]; [|reflexivity]. cbn [rbind]. apply IH.
Qed.
Lemma plain_ends w ls : adaround_net w (APlain :: ls ++ [APlain]) = adaround_net w ls.
Proof.
  rewrite ada_net_cons. cbn [adaround_layer rbind]. rewrite ada_net_app. destruct (adaround_net w ls); reflexivity.
Qed.
Lemma qubo_net_run hs f p w0 next smps : roundable next w0 ->
  forall ls n t inp X w, laid p w0 n (4 * t + 1) ls -> shaped n ls -> (4 * t + 1 + 4 * length ls <= next)%nat -> rows_of n X -> session w0 next w -> roundable next w ->
  exists w', adaround_net w (qubo_layers inp t ls X smps) = Ok w' /\ session w0 next w' /\ roundable next w' /\ (forall j, same_but_policy (w j) (w' j)) /\
    exists os, w' = run f w os /\ Forall (rounding hs w0) os.
Proof.
  intros R0. induction ls as [|l ls IH]; intros n t inp X w LA Sh HL RX SS R.
  { exists w. split; [reflexivity|]. split; [exact SS|]. split; [exact R|]. split; [intros j; apply sbp_refl|]. exists []. split; [reflexivity|constructor]. }
  destruct LA as [L1 L2]. apply shaped_layer in Sh as (SL & SR & Hn). cbn [length] in HL.
  assert (C := proj2 (session_kept _ _ _ (ro_wf _ _ R0) SS)).
  assert (L1' : layer_at p w l n (4 * t + 1)) by (apply (laid_at p w0 next); [lia|exact C|exact L1]).
  destruct (qubo_policies p w l n t inp X (smps t) L1' SL RX) as (ps & F & E1).
  cbn [qubo_layers]. rewrite ada_net_cons. cbn [adaround_layer]. rewrite E1.
  destruct (set_targets_total [TNode (4 * t + 1); TNode (4 * t + 2)] ps w) as (w1 & E2); [eapply PropAnneal.Forall2_weaken; [|exact F]; apply fitting_ok|]. rewrite E2. cbn [rbind].
  destruct (set_targets_keep _ _ _ _ _ _ SS R F E2) as (S1 & R1).
  assert (TI : Forall (target_in next) [TNode (4 * t + 1); TNode (4 * t + 2)]) by (repeat constructor; cbn [target_in]; lia).
  destruct (set_targets_ops hs w0 next f _ _ _ _ C TI F E2) as (os1 & A1 & B1).
  replace (S (S (S (S (4 * t + 1))))) with (4 * S t + 1)%nat in L2 by lia.
  destruct (IH (kd_units l) (S t) (out_of t l) (layer_data l X) w1 L2 SR ltac:(lia) (data_rows n l X SL RX) S1 R1) as (w' & E3 & S3 & R3 & B3 & os2 & A2 & B2).
  exists w'. split; [exact E3|]. split; [exact S3|]. split; [exact R3|]. split.
  - intros j. eapply sbp_trans; [exact (set_targets_frame _ _ _ _ E2 j)|apply B3].
  - exists (os1 ++ os2). split; [rewrite run_app, <- A1; exact A2|apply Forall_app; split; assumption].
Qed.
(** the equalizer leaves the biases in step *)
Lemma eq_settled n ls input specs loss eq r w1 : quantized n ls input specs -> reads_network loss -> fair_run r ->
  tune_net loss (mktune eq None) r (w_nodes (build_net input specs)) ls = Ok (Some w1) -> settled (4 * length ls + 1) (w_layers (build_net input specs)) w1.
Proof.
  intros QU RN [FU FD] E. unfold tune_net in E. cbn [tc_eq tc_ada] in E. set (cost := fun v => loss (export_net v ls)) in *.
  assert (QS := qu_settled n ls input specs QU). assert (QN := qu_next n ls input specs QU).
  destruct eq as [max|]; [|cbn [rbind] in E; match type of E with Ok (Some ?m) = _ => assert (EW : m = w1) by congruence end; rewrite <- EW; exact QS].
  destruct (qu_start n ls input specs QU) as (G & ST & FI & _). destruct (qu_specs n ls input specs QU) as [F FS]. destruct (tr_fuel r) as [|[|f]] eqn:EF; [lia|lia|].
  destruct (C35_dense_networks_never_worse input specs cost f max (tr_turns r) (tr_eq r)
    (full_groups (map (fun sp => match s_act sp with Some _ => true | None => false end) specs)) (wf_good _ G) ST F FI FS (or_intror eq_refl)) as (o & E1 & X).
  - rewrite QN. exact (loss_network loss ls RN).
  - exact FD.
  - rewrite QN in E1, X. rewrite <- (describe_acts ls specs n (qu_nodes _ _ _ _ QU)) in E1. rewrite E1 in E. cbn [rbind] in E.
    destruct o as [w2|]; [|discriminate E]. assert (EW : w2 = w1) by congruence. rewrite <- EW. exact (proj1 X).
Qed.

(** ** C84: the stage runs, whatever the sampler answers *)
(** Building with the QUBO optimizer never raises (on a network the quantizer made, with at least one calibration row, for every loss,
    every draw of the equalizer and every answer of the sampler); it does not end only if the equalizer does not.  What it leaves is
    a tuning session, and every weight and bias of its file is one of the two codes next to the exact one, saturated. *)
Theorem C84_build : forall n ls input specs loss eq r smps X, quantized n ls input specs -> reads_network loss -> fair_run r -> rows_of n X ->
  let w0 := w_nodes (build_net input specs) in
  exists o, tune_qubo loss eq r smps w0 ls X = Ok o /\ (eq = None -> o <> None) /\
    forall w', o = Some w' -> session w0 (4 * length ls + 1) w' /\
      exists q ops d, jt_graph (export_net w' ls) = q :: ops ++ [d] /\ PropTune.rounded ls ops.
Proof.
  intros n ls input specs loss eq r smps X QU RN FR RX w0. assert (R0 := qu_roundable n ls input specs QU). assert (LA := qu_laid n ls input specs QU). fold w0 in R0, LA.
  destruct (tune_run_ok n ls input specs QU loss (mktune eq None) r RN FR) as (o & E & Y). fold w0 in E, Y. unfold tune_qubo. rewrite E. cbn [rbind].
  destruct o as [w1|].
  - destruct (Y w1 eq_refl) as (S1 & R1 & _). rewrite plain_ends.
    destruct (qubo_net_run [] 2 _ w0 _ smps R0 ls n 0 0 X w1 LA (qu_shape _ _ _ _ QU) ltac:(lia) RX S1 R1) as (w2 & E2 & S2 & R2 & _). rewrite E2. cbn [rbind].
    exists (Some w2). split; [reflexivity|]. split; [discriminate|]. intros w' EW. assert (w' = w2) by congruence. subst w'. split; [exact S2|].
    eexists _, _, _. split; [reflexivity|].
    refine (store_rounded (fun j => pars (w0 j)) _ w2 R2 ls n 0 1 _ (qu_shape _ _ _ _ QU) _); [|lia].
    refine (laid_kept _ _ w2 ls n 1 (4 * length ls + 1) _ (proj2 (session_kept _ _ _ (ro_wf _ _ R0) S2)) LA). lia.
  - exists None. split; [reflexivity|]. split; [|discriminate]. intros ->. unfold tune_net in E. cbn [tc_eq tc_ada rbind] in E. discriminate E.
Qed.
(** No calibration rows: the build fails. *)
Theorem C84_no_data : forall n ls input specs loss eq r smps w1, quantized n ls input specs -> ls <> [] ->
  tune_net loss (mktune eq None) r (w_nodes (build_net input specs)) ls = Ok (Some w1) ->
  tune_qubo loss eq r smps (w_nodes (build_net input specs)) ls [] = Err EIndexError.
Proof.
  intros n ls input specs loss eq r smps w1 QU NE E. unfold tune_qubo. rewrite E. cbn [rbind]. rewrite plain_ends. destruct ls as [|l ls]; [congruence|].
  cbn [qubo_layers]. rewrite ada_net_cons. cbn [adaround_layer]. rewrite PropQuboDeploy.C76_no_data; reflexivity.
Qed.
(** Without the equalizer the loss function does not matter: two builds with the same sampler answers write the same file. *)
Theorem C84_loss_ignored : forall loss loss' r r' smps w ls X,
  build_qubo (Some loss) None r smps w ls X = build_qubo (Some loss') None r' smps w ls X.
Proof. intros loss loss' r r' smps w ls X. reflexivity. Qed.
(** Without a loss function the configured optimizers do not run: the file is the one of the quantized network. *)
Theorem C84_no_loss : forall c ls data n j, rready c ls data n -> pipe_build c ls data = Ok j ->
  exists w0 : world, export_net w0 (denses ls) = j /\ forall eq r smps X, build_qubo None eq r smps w0 (denses ls) X = Ok (Some j).
Proof.
  intros c ls data n j R PB. destruct (C80_same_file c ls data n j R PB) as (input & qi & fi & specs & CI & RI & DE & E).
  exists (w_nodes (build_net input specs)). split; [exact E|]. intros eq r smps X. unfold build_qubo. cbn [rbind option_map]. now rewrite E.
Qed.
(** From the Keras layers to the file: quantizing and rounding with the QUBO optimizer writes a file; if its numbers pass the check, the
    engine loads it and the error certificate of C79 covers it. *)
Theorem C84_build_file : forall c ls data n j, rready c ls data n -> pipe_build c ls data = Ok j -> Forall tuned_ok (jt_graph j) ->
  exists w0 : world, export_net w0 (denses ls) = j /\
    forall loss eq r smps X, reads_network loss -> fair_run r -> rows_of n X ->
      exists o, build_qubo (Some loss) eq r smps w0 (denses ls) X = Ok o /\ (eq = None -> o <> None) /\
        forall j', o = Some j' -> Forall tuned_ok (jt_graph j') -> exists qop ops out, dense_file (denses ls) n j' qop ops out.
Proof.
  intros c ls data n j R PB OK. destruct (C80_same_file c ls data n j R PB) as (input & qi & fi & specs & CI & RI & DE & E).
  destruct R as [_ Hn Sh _ _ _].
  assert (QU : quantized n (denses ls) input specs) by (constructor; [exact Hn|exact Sh|eauto|exact DE|rewrite E; exact OK]).
  exists (w_nodes (build_net input specs)). split; [exact E|].
  intros loss eq r smps X RN FR RX. destruct (C84_build n (denses ls) input specs loss eq r smps X QU RN FR RX) as (o & EO & N & Y).
  unfold build_qubo. rewrite EO. cbn [rbind]. eexists. split; [reflexivity|]. split; [intros H; specialize (N H); destruct o; [discriminate|congruence]|].
  intros j' EJ OK'. destruct o as [w'|]; [|discriminate EJ]. cbn [option_map] in EJ. assert (j' = export_net w' (denses ls)) by congruence. subst j'.
  exact (C80_session_file (denses ls) n input qi fi specs w' Hn Sh CI RI DE (proj1 (Y w' eq_refl)) OK').
Qed.
(** Without the equalizer no scale and no zero point changes, and the file obeys the error bound in its scales (C80) even if the
    sampler's answers are arbitrarily bad. *)
Theorem C84_bound : forall n ls input specs loss r smps X w' L D, quantized n ls input specs -> rows_of n X ->
  tune_qubo loss None r smps (w_nodes (build_net input specs)) ls X = Ok (Some w') ->
  (forall j, n_scale (w' j) = n_scale (w_nodes (build_net input specs) j) /\ n_zp (w' j) = n_zp (w_nodes (build_net input specs) j)) /\
  (Forall tuned_ok (jt_graph (export_net w' ls)) ->
   (forall l, In l ls -> is_table l = true -> lipschitz L D l /\ forall a b, (a == b)%Q -> (kd_fn l a == kd_fn l b)%Q) ->
   exists qop ops out net, dense_file ls n (export_net w' ls) qop ops out /\ pipe_load (export_net w' ls) = Ok net /\
    (in_range ls ops -> forall batch, batch <> [] -> (forall x, In x batch -> length x = n) ->
     exists Y, pipe_infer net batch = Ok (VF Y) /\
       Forall2 (fun x y => within (step_cert L D ls ops x (input_err qop x)) y (net_out ls x)) batch Y)).
Proof.
  intros n ls input specs loss r smps X w' L D QU RX E. unfold tune_qubo, tune_net in E. cbn [tc_eq tc_ada rbind] in E. rewrite plain_ends in E.
  set (w0 := w_nodes (build_net input specs)) in *. assert (R0 := qu_roundable n ls input specs QU). assert (LA := qu_laid n ls input specs QU). fold w0 in R0, LA.
  destruct (qubo_net_run (w_layers (build_net input specs)) 2 _ w0 _ smps R0 ls n 0 0 X w0 LA (qu_shape _ _ _ _ QU) ltac:(lia) RX (ss_start _ _) R0) as (w2 & E2 & _ & _ & SB & os & EW & FO).
  rewrite E2 in E. cbn [rbind] in E. assert (Q2 : w2 = w') by congruence. clear E E2. rewrite Q2 in *. clear w2 Q2.
  assert (K : forall j, n_scale (w' j) = n_scale (w0 j) /\ n_zp (w' j) = n_zp (w0 j)). { intros j. destruct (SB j) as (A & _). split; [exact (eq_sym (f_equal (fun t => fst (fst (fst (fst (fst t))))) A))|exact (eq_sym (f_equal (fun t => snd (fst (fst (fst (fst t))))) A))]. }
  split; [exact K|]. intros OK LIP.
  destruct (qu_input _ _ _ _ QU) as (qi & fi & CI & RI).
  assert (Z0 := C80_step_bound ls n L D input qi fi specs 0 os (qu_in _ _ _ _ QU) (qu_shape _ _ _ _ QU) CI RI (qu_nodes _ _ _ _ QU) LIP FO).
  fold w0 in Z0. rewrite <- EW in Z0. apply Z0; [exact OK|]. intros u _. apply K.
Qed.

(** ** C84: exact solvers *)
Lemma ready_layer p w l n t inp X : layer_at p w l n (4 * t + 1) -> layer_shaped n l -> rows_of n X -> bias_ok w (mkhook (4 * t + 2) (4 * t + 1) inp) ->
  (0 < n_scale (w inp))%Q -> (0 < n_scale (w (4 * t + 1)%nat))%Q -> PropQuboDeploy.layer_ready w (qlayer_of inp t l X) n (kd_units l).
Proof.
  intros [(tk & EK & (SK & VK) & KK) (tb & EB & (SB & VB) & KB) _ _] Sh [NE F] (B1 & B2 & _) PI PK. replace (S (4 * t + 1)) with (4 * t + 2)%nat in * by lia.
  cbn [h_bias h_kernel h_input] in B1, B2. pose proof Sh as (_ & _ & LK & _).
  split; [exact NE|]. split; [exact F|]. split; [exact (kd_b_length n l Sh)|]. split; [exact PI|]. split; [exact PK|]. split; [|split].
  - split; [reflexivity|]. split; [reflexivity|]. split; [exact (proj1 KK)|]. cbn [qlayer_of ql_kernel ql_K].
    destruct (n_tens (w (4 * t + 1)%nat)) as [x|]; [|discriminate EK]. cbn [option_map] in EK. assert (EF : t_fp x = tk) by congruence. exists x. split; [reflexivity|]. rewrite EF. split; [exact SK|].
    intros [|j [|i [|? ?]]] V; cbn [valid_idx] in V; try discriminate V; try (rewrite andb_false_r in V; discriminate V).
    + rewrite andb_true_r in V. apply andb_true_iff in V as [V1 V2]. apply Nat.ltb_lt in V1, V2. cbn [PropQuboDeploy.at2]. rewrite (VK j i V1 V2), kd_w_nth by exact V1. reflexivity.
    + rewrite andb_false_r, andb_false_r in V. discriminate V.
  - split; [unfold PropQuboDeploy.in_scale, PropQuboDeploy.k_scale; cbn [qlayer_of ql_input ql_kernel ql_bias]; rewrite B1; ring|]. split; [exact B2|]. split; [exact (proj1 KB)|]. cbn [qlayer_of ql_bias ql_B].
    destruct (n_tens (w (4 * t + 2)%nat)) as [x|]; [|discriminate EB]. cbn [option_map] in EB. assert (EF : t_fp x = tb) by congruence. exists x. split; [reflexivity|]. rewrite EF. split; [exact SB|].
    intros [|j [|? ?]] V; cbn [valid_idx] in V; try discriminate V; [|rewrite andb_false_r in V; discriminate V].
    rewrite andb_true_r in V. apply Nat.ltb_lt in V. cbn [PropQuboDeploy.at1]. rewrite (VB j V), (kd_b_nth n l j Sh V). reflexivity.
  - cbn [qlayer_of ql_kernel ql_bias]. lia.
Qed.
Lemma qubo_targets : forall ls inp t X smps, NoDup (flat_map PropQuboDeploy.targets_of (qubo_layers inp t ls X smps)) /\
  forall j, In j (flat_map PropQuboDeploy.targets_of (qubo_layers inp t ls X smps)) -> (4 * t + 1 <= j)%nat.
Proof.
  induction ls as [|l ls IH]; intros inp t X smps; cbn [qubo_layers flat_map]; [split; [constructor|intros j []]|].
  destruct (IH (out_of t l) (S t) (layer_data l X) smps) as [ND GE]. cbn [PropQuboDeploy.targets_of qlayer_of ql_kernel ql_bias app]. split.
  - constructor; [intros [H|H]; [lia|]; specialize (GE _ H); lia|]. constructor; [intros H; specialize (GE _ H); lia|exact ND].
  - intros j [<-|[<-|H]]; [lia|lia|]. specialize (GE _ H). lia.
Qed.
Section Best.
Context (p : nat -> Q * Z) (hs : list hook) (w1 w' : world) (smps : nat -> nat -> nat -> bool).
Context (BO : forall h, In h hs -> bias_ok w1 h) (SB : forall j, same_but_policy (w1 j) (w' j)) (WF : forall j, wf (w' j)).
Lemma sb_scale j : n_scale (w' j) = n_scale (w1 j) /\ n_zp (w' j) = n_zp (w1 j) /\ n_q (w' j) = n_q (w1 j).
Proof. destruct (SB j) as (A & _). repeat split; congruence. Qed.
Lemma first_op ls inp k l g : fst (export_layers w' inp k (l :: ls)) = g -> Forall tuned_ok g ->
  exists g', g = mkjop (str "FULLY_CONNECTED") (str "fully_connected " ++ kd_name l) (mkpb [data_json (w' inp); weight_json (w' k); weight_json (w' (S k))] [data_json (w' (S (S k)))]) :: g' /\
    (0 < n_scale (w1 k))%Q /\
    fst (export_layers w' (if is_table l then S (S (S k)) else S (S k)) (S (S (S (S k)))) ls) = (if is_table l then tl g' else g') /\
    Forall tuned_ok (if is_table l then tl g' else g') /\ (0 < n_scale (w1 (if is_table l then S (S (S k)) else S (S k))))%Q.
Proof.
  intros <- OK. cbn [export_layers] in *. rewrite lut_functions_table in *. destruct (is_table l); cbn [fst] in *.
  - assert (O1 := Forall_inv OK). assert (OK1 := Forall_inv_tail OK). assert (O2 := Forall_inv OK1). assert (OK2 := Forall_inv_tail OK1).
    eexists. split; [reflexivity|]. destruct O1 as (_ & _ & NU). destruct (NU _ _ _ _ eq_refl) as [P _]. cbn [weight_json pn_scale] in P. rewrite (proj1 (sb_scale k)) in P. split; [exact P|].
    cbn [tl]. split; [reflexivity|]. split; [exact OK2|]. destruct O2 as (_ & SN & _). destruct (SN (data_json (w' (S (S (S k)))))) as [P3 _]; [now left|].
    cbn [data_json pn_scale] in P3. rewrite (proj1 (sb_scale _)) in P3. exact P3.
  - assert (O1 := Forall_inv OK). assert (OK1 := Forall_inv_tail OK).
    eexists. split; [reflexivity|]. destruct O1 as (_ & SN & NU). destruct (NU _ _ _ _ eq_refl) as [P _]. cbn [weight_json pn_scale] in P. rewrite (proj1 (sb_scale k)) in P. split; [exact P|].
    split; [reflexivity|]. split; [exact OK1|]. destruct (SN (data_json (w' (S (S k))))) as [P3 _]; [now left|].
    cbn [data_json pn_scale] in P3. rewrite (proj1 (sb_scale _)) in P3. exact P3.
Qed.
Lemma out_of_eq t l : out_of t l = if is_table l then S (S (S (4 * t + 1))) else S (S (4 * t + 1)).
Proof. unfold out_of. rewrite lut_functions_table. destruct (is_table l); lia. Qed.
Lemma ready_all : forall ls n inp t X, laid p w1 n (4 * t + 1) ls -> hooked hs inp (4 * t + 1) ls -> shaped n ls -> rows_of n X ->
  Forall tuned_ok (fst (export_layers w' inp (4 * t + 1) ls)) -> (0 < n_scale (w1 inp))%Q ->
  forall L smp, In (ADense L smp) (qubo_layers inp t ls X smps) -> exists n m, PropQuboDeploy.layer_ready w1 L n m.
Proof.
  induction ls as [|l ls IH]; intros n inp t X LA HK Sh RX OK PI L smp HL; [destruct HL|]. destruct LA as [L1 L2], HK as [H1 H2]. apply shaped_layer in Sh as (SL & SR & Hn).
  destruct (first_op ls inp _ l _ eq_refl OK) as (g' & EG & PK & EX & OKR & PO). replace (S (4 * t + 1)) with (4 * t + 2)%nat in H1 by lia.
  cbn [qubo_layers] in HL. destruct HL as [HL|HL].
  - exists n, (kd_units l). assert (EL : qlayer_of inp t l X = L) by congruence. rewrite <- EL. exact (ready_layer p w1 l n t inp X L1 SL RX (BO _ H1) PI PK).
  - rewrite <- EX in OKR. replace (S (S (S (S (4 * t + 1))))) with (4 * S t + 1)%nat in * by lia. rewrite out_of_eq in HL.
    exact (IH (kd_units l) _ (S t) (layer_data l X) L2 H2 SR (data_rows n l X SL RX) OKR PO L smp HL).
Qed.
(** one layer: the codes in the file against every other rounding *)
Lemma next_bit x c : next_to x c -> exists b : bool, c = Qfloor x + (if b then 1 else 0).
Proof. intros [->| ->]; [exists false; lia|exists true; reflexivity]. Qed.
Lemma pick_bits (f : nat -> Q) (g : nat -> Z) : forall n, (forall a, (a < n)%nat -> next_to (f a) (g a)) ->
  exists v : nat -> bool, forall a, (a < n)%nat -> g a = Qfloor (f a) + (if v a then 1 else 0).
Proof.
  intros n H. exists (fun a => Z.eqb (g a) (Qfloor (f a) + 1)). intros a Ha. destruct (Z.eqb_spec (g a) (Qfloor (f a) + 1)) as [E|E]; [exact E|].
  destruct (H a Ha) as [X|X]; [lia|contradiction].
Qed.
Lemma layer_best l n t inp X smp op : layer_at p w' l n (4 * t + 1) -> layer_shaped n l -> rows_of n X -> known_act l ->
  PropQuboDeploy.layer_ready w1 (qlayer_of inp t l X) n (kd_units l) -> solved w1 (ADense (qlayer_of inp t l X) smp) ->
  PropQuboDeploy.rounded w1 w' (qlayer_of inp t l X) n (kd_units l) smp -> (exists s, parse_dtype s = Ok (n_q (w1 inp))) ->
  op = mkjop (str "FULLY_CONNECTED") (str "fully_connected " ++ kd_name l)
         (mkpb [data_json (w' inp); weight_json (w' (4 * t + 1)%nat); weight_json (w' (4 * t + 2)%nat)] [data_json (w' (4 * t + 3)%nat)]) ->
  best_layer l X op.
Proof.
  intros [(tk & EK & (SK & _) & _) (tb & EB & (SB' & _) & _) _ _] SL RX KA RD SO RO PQ ->. set (L := qlayer_of inp t l X) in *.
  replace (S (4 * t + 1)) with (4 * t + 2)%nat in EB by lia. pose proof SL as (_ & _ & LK & _).
  destruct SO as (IX & SE & CR). assert (LB : length (ql_B L) = kd_units l) by exact (kd_b_length n l SL). rewrite LB in SE, CR.
  assert (LX : length (hd [] (ql_X L)) = n). { destruct RX as [NE F]. cbn [L qlayer_of ql_X]. destruct X; [congruence|exact (Forall_inv F)]. } rewrite LX in CR.
  exists (data_json (w' inp)), (weight_json (w' (4 * t + 1)%nat)), (weight_json (w' (4 * t + 2)%nat)), (data_json (w' (4 * t + 3)%nat)), (n_q (w1 inp)),
    (code_rows (w' (4 * t + 1)%nat) (kd_units l) n), (code_vec (w' (4 * t + 2)%nat) (kd_units l)).
  split; [reflexivity|]. split; [cbn [data_json pn_dtype]; rewrite (proj2 (proj2 (sb_scale inp))); exact (known_parse _ PQ)|].
  split; [exact (weight_mat _ tk _ _ (WF _) EK SK)|]. split; [exact (weight_vec _ tb _ (WF _) EB SB')|].
  intros j Hj row c LR NR NC.
  assert (FF : forall rw b, file_fit l X (n_q (w1 inp)) (data_json (w' inp)) (weight_json (w' (4 * t + 1)%nat)) j rw b = PropQuboDeploy.fit w1 L j rw b).
  { intros rw b. unfold file_fit, PropQuboDeploy.fit, PropQuboDeploy.input_codes, PropQuboDeploy.in_scale, PropQuboDeploy.k_scale, PropQuboDeploy.k_zp.
    cbn [data_json weight_json pn_scale pn_zp L qlayer_of ql_input ql_kernel ql_X ql_O]. rewrite (data_float n l X SL RX KA).
    destruct (sb_scale inp) as (-> & -> & _), (sb_scale (4 * t + 1)%nat) as (-> & -> & _). reflexivity. }
  rewrite !FF.
  destruct (PropQuboDeploy.C76_codes w1 L n (kd_units l) smp RD) as (w2 & E2 & (RK2 & RB2) & _). destruct RO as (RK & RB).
  assert (KR : nth j (code_rows (w' (4 * t + 1)%nat) (kd_units l) n) [] = PropQuboDeploy.kernel_row w2 L n j).
  { unfold PropQuboDeploy.kernel_row, code_rows. destruct (n_tens (w' (4 * t + 1)%nat)) as [x|] eqn:T; [|discriminate EK]. rewrite nth_map_seq by exact Hj.
    apply map_ext_in. intros i Hi. apply in_seq in Hi. rewrite (RK2 j i Hj ltac:(lia)), <- (RK j i Hj ltac:(lia)). unfold PropQuboDeploy.kernel_code. cbn [L qlayer_of ql_kernel]. rewrite T. reflexivity. }
  assert (BR : nth j (code_vec (w' (4 * t + 2)%nat) (kd_units l)) 0 = PropQuboDeploy.bias_code w2 L j).
  { rewrite (RB2 j Hj), <- (RB j Hj). unfold PropQuboDeploy.bias_code, code_vec. cbn [L qlayer_of ql_bias]. destruct (n_tens (w' (4 * t + 2)%nat)) as [x|] eqn:T; [|discriminate EB]. exact (PipeProofs.nth_map_seq (fun a : nat => nd_get (t_codes x) [a]) (kd_units l) j 0%Z Hj). }
  rewrite KR, BR. rewrite LR, LK in NR.
  cbn [weight_json data_json pn_scale pn_zp] in NR, NC. rewrite (proj1 (sb_scale _)), (proj1 (sb_scale _)) in NC.
  destruct (pick_bits (fun a => nth a (column j (kd_kernel l)) 0 / n_scale (w1 (4 * t + 1)%nat))%Q (fun a => nth a row 0 - n_zp (w1 (4 * t + 1)%nat)) n) as (v & V).
  { intros a Ha. specialize (NR a Ha). rewrite (proj1 (sb_scale _)), (proj1 (proj2 (sb_scale _))) in NR. exact NR. }
  destruct (next_bit _ _ NC) as (u & U).
  assert (ER : row = map (fun i => PropQuboDeploy.either (PropQuboDeploy.k_scale w1 L) (nth i (nth j (ql_K L) []) 0%Q) (v i) + PropQuboDeploy.k_zp w1 L) (seq 0 n)).
  { apply nth_ext with (d := 0) (d' := 0); [rewrite map_length, seq_length; congruence|]. intros a Ha. rewrite LR, LK in Ha. rewrite (nth_map_seq (fun i => PropQuboDeploy.either (PropQuboDeploy.k_scale w1 L) (nth i (nth j (ql_K L) []) 0%Q) (v i) + PropQuboDeploy.k_zp w1 L)) by exact Ha.
    specialize (V a Ha). cbv beta in V. unfold PropQuboDeploy.either, PropQuboDeploy.k_scale, PropQuboDeploy.k_zp. cbn [L qlayer_of ql_kernel ql_K]. rewrite kd_w_nth by exact Hj. lia. }
  assert (EC : c = PropQuboDeploy.either (PropQuboDeploy.in_scale w1 L * PropQuboDeploy.k_scale w1 L) (nth j (ql_B L) 0%Q) u).
  { rewrite U. unfold PropQuboDeploy.either. cbn [L qlayer_of ql_B]. rewrite (kd_b_nth n l j SL Hj). reflexivity. }
  rewrite ER, EC. exact (PropQuboDeploy.C76_deployed_optimal w1 L n (kd_units l) smp w2 RD IX SE CR E2 j Hj v u).
Qed.
Lemma best_all : forall ls n inp t X, laid p w1 n (4 * t + 1) ls -> laid p w' n (4 * t + 1) ls -> hooked hs inp (4 * t + 1) ls -> shaped n ls -> rows_of n X ->
  Forall known_act ls -> Forall tuned_ok (fst (export_layers w' inp (4 * t + 1) ls)) -> (0 < n_scale (w1 inp))%Q -> (exists s, parse_dtype s = Ok (n_q (w1 inp))) ->
  Forall (solved w1) (qubo_layers inp t ls X smps) ->
  (forall L smp n m, In (ADense L smp) (qubo_layers inp t ls X smps) -> PropQuboDeploy.layer_ready w1 L n m -> PropQuboDeploy.rounded w1 w' L n m smp) ->
  best_rounded ls X (fst (export_layers w' inp (4 * t + 1) ls)).
Proof.
  induction ls as [|l ls IH]; intros n inp t X LA LA' HK Sh RX KA OK PI PQ SO RO; [exact Logic.I|]. destruct LA as [L1 L2], LA' as [L1' L2'], HK as [H1 H2]. apply shaped_layer in Sh as (SL & SR & Hn).
  destruct (first_op ls inp _ l _ eq_refl OK) as (g' & EG & PK & EX & OKR & PO). rewrite EG. clear EG OK. replace (S (4 * t + 1)) with (4 * t + 2)%nat in H1 by lia.
  assert (RD := ready_layer p w1 l n t inp X L1 SL RX (BO _ H1) PI PK).
  cbn [qubo_layers] in SO, RO. cbn [best_rounded]. split.
  - eapply (layer_best l n t inp X (smps t)); [exact L1'|exact SL|exact RX|exact (Forall_inv KA)|exact RD|exact (Forall_inv SO)| |exact PQ|].
    + apply (RO _ _ n (kd_units l) (or_introl eq_refl)). exact RD.
    + replace (S (4 * t + 1)) with (4 * t + 2)%nat by lia. replace (S (4 * t + 2)) with (4 * t + 3)%nat by lia. reflexivity.
  - rewrite <- EX in *. rewrite <- (data_float n l X SL RX (Forall_inv KA)). replace (S (S (S (S (4 * t + 1))))) with (4 * S t + 1)%nat in * by lia. rewrite out_of_eq in SO, RO.
    apply (IH (kd_units l) _ (S t) (layer_data l X)); [exact L2|exact L2'|exact H2|exact SR|exact (data_rows n l X SL RX)|exact (Forall_inv_tail KA)|exact OKR|exact PO| |exact (Forall_inv_tail SO)|].
    + assert (RA := la_a _ _ _ _ _ L1). destruct (is_table l) eqn:T; [|exact (proj2 RA)]. destruct (la_t _ _ _ _ _ L1 T) as (-> & _). exact (proj2 RA).
    + intros L smp n0 m HL. apply RO. now right.
Qed.
End Best.
(** If the sampler solves every layer's QUBO exactly, no calibration input saturates or falls exactly between two codes, and the chosen
    roundings stay in the dtypes, then every dense layer of the file written - with or without the equalizer - has the weights and
    biases that fit the float layer's outputs best among all roundings of its weights and biases to neighbouring codes. *)
Theorem C84_optimal : forall n ls input specs loss eq r smps X w1 w', quantized n ls input specs -> reads_network loss -> fair_run r -> rows_of n X ->
  Forall known_act ls ->
  tune_net loss (mktune eq None) r (w_nodes (build_net input specs)) ls = Ok (Some w1) ->
  Forall (solved w1) (qubo_layers 0 0 ls X smps) ->
  tune_qubo loss eq r smps (w_nodes (build_net input specs)) ls X = Ok (Some w') ->
  Forall tuned_ok (jt_graph (export_net w' ls)) ->
  exists q ops d, jt_graph (export_net w' ls) = q :: ops ++ [d] /\ best_rounded ls X ops.
Proof.
  intros n ls input specs loss eq r smps X w1 w' QU RN FR RX KA E SO EQ OK. set (w0 := w_nodes (build_net input specs)) in *.
  assert (R0 := qu_roundable n ls input specs QU). assert (LA := qu_laid n ls input specs QU). fold w0 in R0, LA.
  assert (SE := eq_settled n ls input specs loss eq r w1 QU RN FR E).
  destruct (tune_run_ok n ls input specs QU loss (mktune eq None) r RN FR) as (o & E' & Y). fold w0 in E', Y. assert (EO : o = Some w1) by congruence.
  destruct (Y w1 EO) as (S1 & R1 & _). clear Y E' EO.
  destruct (qubo_net_run [] 2 _ w0 _ smps R0 ls n 0 0 X w1 LA (qu_shape _ _ _ _ QU) ltac:(lia) RX S1 R1) as (w2 & E2 & S2 & R2 & SB & _).
  unfold tune_qubo in EQ. rewrite E in EQ. cbn [rbind] in EQ. rewrite plain_ends, E2 in EQ. cbn [rbind] in EQ. assert (Q2 : w2 = w') by congruence. clear EQ. rewrite Q2 in *. clear w2 Q2.
  assert (C1 := proj2 (session_kept _ _ _ (ro_wf _ _ R0) S1)). assert (C2 := proj2 (session_kept _ _ _ (ro_wf _ _ R0) S2)).
  assert (LA1 : laid (fun j => pars (w0 j)) w1 n 1 ls) by (refine (laid_kept _ _ w1 ls n 1 (4 * length ls + 1) _ C1 LA); lia).
  assert (LA2 : laid (fun j => pars (w0 j)) w' n 1 ls) by (refine (laid_kept _ _ w' ls n 1 (4 * length ls + 1) _ C2 LA); lia).
  assert (HK := build_hooked ls specs n (start_net input) (qu_nodes _ _ _ _ QU)). fold (build_net input specs) in HK. cbn [start_net w_next w_in] in HK.
  assert (OK0 := OK). unfold export_net in OK. cbn [jt_graph] in OK. assert (OQ := Forall_inv OK). assert (OK1 := Forall_inv_tail OK). apply Forall_app_inv in OK1 as [OK1 _].
  assert (PI : (0 < n_scale (w1 0%nat))%Q).
  { destruct OQ as (_ & SN & _). destruct (SN (data_json (w' 0%nat))) as [P _]; [now left|]. cbn [data_json pn_scale] in P. rewrite (proj1 (sb_scale w1 w' SB 0%nat)) in P. exact P. }
  assert (PQ : exists s, parse_dtype s = Ok (n_q (w1 0%nat))).
  { rewrite (core_q _ _ (C1 0%nat ltac:(lia))). destruct (qu_input _ _ _ _ QU) as (qi & fi & (s & z & EI) & RI). exists (grepr qi).
    replace (n_q (w0 0%nat)) with qi; [exact (known_parse _ (proj2 RI))|]. symmetry. change (n_q (bare (w0 0%nat)) = qi). unfold w0, build_net. rewrite fold_dense_old by (cbn; lia). cbn [start_net w_nodes]. rewrite EI. reflexivity. }
  assert (BO := so_bias _ _ (se_sound _ _ _ SE)). destruct (qubo_targets ls 0 0 X smps) as [ND _].
  destruct (PropQuboDeploy.C76_network (qubo_layers 0 0 ls X smps) w1 ND (ready_all _ (w_layers (build_net input specs)) w1 w' smps BO SB ls n 0 0 X LA1 HK (qu_shape _ _ _ _ QU) RX OK1 PI)) as (w2 & E3 & RO & _).
  assert (Q2 : w2 = w') by congruence. rewrite Q2 in *. clear w2 Q2.
  eexists _, _, _. split; [reflexivity|].
  exact (best_all _ (w_layers (build_net input specs)) w1 w' smps BO SB (ro_wf _ _ R2) ls n 0 0 X LA1 LA2 HK (qu_shape _ _ _ _ QU) RX KA OK1 PI PQ SO RO).
Qed.

(** ** A case: the two-layer network of C80, two calibration rows, a solver that tries all eight roundings of a neuron *)
Definition e84_rows : list (list Q) := [[1; 1]; [1#2; 1]]%Q.
Definition e84_err (I : inst) (l : nat) (b : bool * bool * bool) : Q :=
  let '(v0, v1, c) := b in mse I l (weight I l (fun i => match i with 0%nat => v0 | _ => v1 end)) (biasq I l c).
Definition e84_all : list (bool * bool * bool) :=
  [(false,false,false); (false,false,true); (false,true,false); (false,true,true); (true,false,false); (true,false,true); (true,true,false); (true,true,true)].
Definition e84_best (I : inst) (l : nat) : bool * bool * bool :=
  fold_left (fun a b => if Qle_bool (e84_err I l a) (e84_err I l b) then a else b) (tl e84_all) (false, false, false).
(** variables 2l+1, 2l+2: kernel; afterwards: bias *)
Definition e84_sampler (I : inst) (l u : nat) : bool :=
  let '(v0, v1, c) := e84_best I l in if Nat.eqb u (2 * l + 1) then v0 else if Nat.eqb u (2 * l + 2) then v1 else c.
Definition e84_w0 : world := w_nodes (build_net e8_input e8_specs).
Definition e84_smps (t : nat) : nat -> nat -> bool := match t with
  | 0%nat => e84_sampler (inst_of e84_w0 (qlayer_of 0 0 e8_l1 e84_rows))
  | _ => e84_sampler (inst_of e84_w0 (qlayer_of 3 1 e8_l2 (layer_data e8_l1 e84_rows))) end.
Lemma two_exact w L m smp : wf_inst (inst_of w L) -> iIn (inst_of w L) = 2%nat -> iOut (inst_of w L) = m ->
  (forall l, (l < m)%nat -> forallb (fun b => Qle_bool (e84_err (inst_of w L) l (smp l (l * 2 + 1)%nat, smp l (l * 2 + 2)%nat, smp l (2 * m + 1 + l)%nat)) (e84_err (inst_of w L) l b)) e84_all = true) ->
  PropQuboDeploy.solver_exact w L m smp.
Proof.
  intros WF I2 IO MIN l D Hl HD y. set (I := inst_of w L) in *. rewrite <- IO in Hl.
  assert (EE : forall x, (energy D x == e84_err I l (x (l * 2 + 1)%nat, x (l * 2 + 2)%nat, x (2 * m + 1 + l)%nat) - mse I l (weight I l (fun _ => false)) (biasq I l false))%Q).
  { intros x. destruct (PropQubo.C38_energy_is_mse I l x WF Hl) as (D' & HD' & EN). assert (D' = D) by congruence. subst D'. rewrite EN.
    unfold Qminus. apply Qplus_comp; [|reflexivity]. unfold e84_err, mse. apply Qmult_comp; [|reflexivity]. apply BaseProofs.sumQ_map_ext. intros s _.
    unfold neuron_out, bvar. rewrite I2, IO. cbn [seq map]. unfold weight, kvar. rewrite I2. replace (l * 2 + 0 + 1)%nat with (l * 2 + 1)%nat by lia. replace (l * 2 + 1 + 1)%nat with (l * 2 + 2)%nat by lia. reflexivity. }
  rewrite !EE. rewrite IO in Hl. specialize (MIN l Hl). rewrite forallb_forall in MIN.
  assert (M := MIN (y (l * 2 + 1)%nat, y (l * 2 + 2)%nat, y (2 * m + 1 + l)%nat)). apply Qle_bool_iff in M; [lra|].
  destruct (y (l * 2 + 1)%nat), (y (l * 2 + 2)%nat), (y (2 * m + 1 + l)%nat); cbn; tauto.
Qed.
Definition e84_inb (w : world) (L : qlayer) (x : Q) : bool :=
  let d := n_q (w (ql_input L)) in let y := (x / PropQuboDeploy.in_scale w L)%Q in
  Qle_bool (inject_Z (gmin d)) (y + inject_Z (n_zp (w (ql_input L)))) && Qle_bool (y + inject_Z (n_zp (w (ql_input L)))) (inject_Z (gmax d)) &&
  negb (Qeq_bool (y - inject_Z (Qfloor y)) (1#2)).
Lemma e84_inputs w L : within_int32 (n_q (w (ql_input L))) -> forallb (forallb (e84_inb w L)) (ql_X L) = true -> PropQuboDeploy.inputs_ok w L.
Proof.
  intros W F. split; [exact W|]. intros r x Hr Hx. rewrite forallb_forall in F. specialize (F r Hr). rewrite forallb_forall in F. specialize (F x Hx).
  unfold e84_inb in F. apply andb_true_iff in F as [F N]. apply andb_true_iff in F as [A B]. apply Qle_bool_iff in A, B. split; [split; assumption|].
  intros k K. apply negb_true_iff in N. assert (E : Qfloor (x / PropQuboDeploy.in_scale w L) = k) by (apply Qfloor_iff; lra).
  rewrite E in N. apply Qeq_bool_neq in N. apply N. rewrite K. ring.
Qed.
Definition e84_rangeb (w : world) (L : qlayer) (n m : nat) (smp : nat -> nat -> bool) : bool :=
  let inb d z := (gmin d <=? z) && (z <=? gmax d) in
  forallb (fun l => forallb (fun i => inb (n_q (w (ql_kernel L))) (PropQuboDeploy.either (PropQuboDeploy.k_scale w L) (nth i (nth l (ql_K L) []) 0%Q) (PropQuboDeploy.up_kernel n smp l i) + PropQuboDeploy.k_zp w L)) (seq 0 n)) (seq 0 m) &&
  forallb (fun l => inb (n_q (w (ql_bias L))) (PropQuboDeploy.either (PropQuboDeploy.in_scale w L * PropQuboDeploy.k_scale w L) (nth l (ql_B L) 0%Q) (PropQuboDeploy.up_bias n m smp l))) (seq 0 m).
Lemma e84_range w L n m smp : e84_rangeb w L n m smp = true -> PropQuboDeploy.choice_in_range w L n m smp.
Proof.
  intros F. apply andb_true_iff in F as [A B]. rewrite forallb_forall in A, B. split.
  - intros l i Hl Hi. specialize (A l ltac:(apply in_seq; lia)). rewrite forallb_forall in A. specialize (A i ltac:(apply in_seq; lia)). apply andb_true_iff in A as [A1 A2]. apply Z.leb_le in A1, A2. split; assumption.
  - intros l Hl. specialize (B l ltac:(apply in_seq; lia)). apply andb_true_iff in B as [A1 A2]. apply Z.leb_le in A1, A2. split; assumption.
Qed.
(** the hypotheses of C84_optimal hold, and the file written differs from the one without adaptive rounding *)
Example C84_example : quantized 2 e8_net e8_input e8_specs /\ rows_of 2 e84_rows /\ Forall known_act e8_net /\
  Forall (solved e84_w0) (qubo_layers 0 0 e8_net e84_rows e84_smps) /\
  exists w', tune_qubo e9_loss None e9_run e84_smps e84_w0 e8_net e84_rows = Ok (Some w') /\ Forall tuned_ok (jt_graph (export_net w' e8_net)) /\
    jt_graph (export_net w' e8_net) <> jt_graph (export_net e84_w0 e8_net) /\
    exists q ops d, jt_graph (export_net w' e8_net) = q :: ops ++ [d] /\ best_rounded e8_net e84_rows ops.
Proof.
  destruct C81_example_hypotheses as (QU & RN & _ & _ & _ & FR).
  assert (RX : rows_of 2 e84_rows) by (split; [discriminate|repeat constructor]).
  assert (KA : Forall known_act e8_net) by (constructor; [right; reflexivity|constructor; [left; reflexivity|constructor]]).
  assert (SO : Forall (solved e84_w0) (qubo_layers 0 0 e8_net e84_rows e84_smps)).
  { constructor; [|constructor; [|constructor]].
    - split; [apply e84_inputs; [unfold within_int32; vm_compute; repeat split; congruence|vm_compute; reflexivity]|]. split.
      + apply two_exact; [split; [vm_compute; lia|split; intros QZ; vm_compute in QZ; discriminate QZ]|reflexivity|reflexivity|]. intros [|[|l]] Hl; [vm_compute; reflexivity|vm_compute; reflexivity|cbn in Hl; lia].
      + apply e84_range. vm_compute. reflexivity.
    - split; [apply e84_inputs; [unfold within_int32; vm_compute; repeat split; congruence|vm_compute; reflexivity]|]. split.
      + apply two_exact; [split; [vm_compute; lia|split; intros QZ; vm_compute in QZ; discriminate QZ]|reflexivity|reflexivity|]. intros [|l] Hl; [vm_compute; reflexivity|cbn in Hl; lia].
      + apply e84_range. vm_compute. reflexivity. }
  split; [exact QU|]. split; [exact RX|]. split; [exact KA|]. split; [exact SO|].
  assert (K : match tune_qubo e9_loss None e9_run e84_smps e84_w0 e8_net e84_rows with
    | Ok (Some w') => forallb tuned_okb (jt_graph (export_net w' e8_net)) &&
        match jt_graph (export_net w' e8_net), jt_graph (export_net e84_w0 e8_net) with
        | _ :: mkjop _ _ (mkpb [_; mkpn _ _ _ _ (PMat a) _; _] _) :: _, _ :: mkjop _ _ (mkpb [_; mkpn _ _ _ _ (PMat b) _; _] _) :: _ => negb (forallb (fun p => Z.eqb (fst p) (snd p)) (combine (concat a) (concat b)))
        | _, _ => false end
    | _ => false end = true) by (vm_compute; reflexivity).
  destruct (tune_qubo e9_loss None e9_run e84_smps e84_w0 e8_net e84_rows) as [[w'|]|] eqn:E; [|discriminate K|discriminate K].
  apply andb_true_iff in K as [K1 K2]. rewrite forallb_forall in K1.
  assert (OK : Forall tuned_ok (jt_graph (export_net w' e8_net))) by (apply Forall_forall; intros op Hop; exact (tuned_okb_sound op (K1 op Hop))).
  exists w'. split; [reflexivity|]. split; [exact OK|]. split.
  - intros EQ. rewrite EQ in K2. revert K2. vm_compute. discriminate.
  - exact (C84_optimal 2 e8_net e8_input e8_specs e9_loss None e9_run e84_smps e84_rows e84_w0 w' QU RN FR RX KA eq_refl SO E OK).
Qed.
