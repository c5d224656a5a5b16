(** C90: the engine reading an LSTM file and running it with its float operations in binary64: its distance to the textbook LSTM. *)
From Verif Require Import Base BaseProofs DtypeModel DtypeProofs QuantModel QuantProofs LutModel LutProofs FcModel FcProofs FcLayer
  EngineModel EngineProofs DistModel DistProofs BuildModel PipeModel LstmModel KLstmModel PropCore PropFc PropEngine PropDist PropNodeLut PipeSpec PipeProofs
  LstmProofs PropLstm KLstmSpec KLstmProofs KLstmError
  FloatModel FloatProofs FloatQuant PropFloat FloatFcModel PropFloatFc FloatLstmModel FloatLstmProofs PropFloatLstm FloatLstmRun PropFloatLstmRun
  FloatKLstmModel FloatKLstmSpec FloatKLstm PropKLstm.
From Coq Require Import Lqa Qminmax.
Open Scope Z_scope.
Open Scope list_scope.

(** The engine builds, runs every batch, and every hidden state it returns is within [d_out] of the textbook one, and in the output type. *)
Theorem C90_error : forall fn q l b e rho sigma Ls Ds Lt Dt,
  keras_lstm l b -> short_types q -> (0 <= rho)%Q -> lstm_file rho fn q l b e -> lstm_numbers_ok l e sigma ->
  bounded_lip (fn_sig fn) Ls Ds -> bounded_lip (fn_tanh fn) Lt Dt ->
  exists eng, lstm_from_model_f (le_ins e) (le_out e) (kl_seq l) = Ok eng /\
  forall T' X ex batch codes, (0 < T')%nat -> batch <> [] -> (0 <= ex)%Q ->
    Forall2 (stands_for (x_in e) (length (kl_K l)) T' X ex) codes batch -> (forall xs, In xs batch -> lstm_in_range rho fn q l b e xs) ->
  exists o rec, lstm_infer_f eng T' codes = Ok (o, rec) /\
    (forall i t, (i < length batch)%nat -> (t < T')%nat -> (out_row o T' i t <> None <-> kl_seq l = true \/ t = (T' - 1)%nat)) /\
    forall i t row, (i < length batch)%nat -> (t < T')%nat -> out_row o T' i t = Some row ->
      length row = kl_units l /\ forall j, (j < kl_units l)%nat -> in_dtype (q_hidden q) (nth j row 0) /\
        (Qabs (val (le_out e) (nth j row 0%Z) - hidden_at fn l b (nth i batch []) t j) <= d_out l (q_cell q) e Ls Ds Lt Dt X ex rho sigma t)%Q.
Proof.
  intros fn q l b e rho sigma Ls Ds Lt Dt Sh GD R0 FI NO LS LT.
  destruct (fi_in _ _ _ _ _ _ FI) as (qi & IG & IS).
  destruct (engine_builds_f fn q l b e rho sigma Sh GD FI NO (kl_seq l)) as (eng & G & EB).
  exists eng. split; [rewrite (from_model_eq_f _ _ _ _ _ _ FI); apply (ec_build _ _ _ _ _ _ EB)|].
  intros T' X ex batch codes HT NE E0 SF COV.
  pose proof (F2_length _ _ _ SF) as LB.
  assert (AT : forall i, (i < length batch)%nat -> stands_for (x_in e) (length (kl_K l)) T' X ex (nth i codes []) (nth i batch [])).
  { clear - SF. induction SF as [|c x cs xs H _ IH]; intros i Hi; [cbn in Hi; lia|]. destruct i as [|i]; [exact H|]. apply IH. cbn in Hi. lia. }
  assert (NC : codes <> []) by (intros Z; rewrite Z in LB; destruct batch; [congruence|discriminate LB]).
  destruct (run_total fn q l b e rho sigma Sh GD FI NO (kl_seq l) eng G T' codes EB HT NC) as ((o & rec) & RUN).
  { intros s t Hs Ht. apply In_nth with (d := []) in Hs as (i & Hi & <-). destruct (AT i ltac:(lia)) as (_ & _ & A). apply (A t Ht). }
  exists o, rec. split; [exact RUN|].
  destruct (infer_inv_F _ _ _ _ _ RUN) as (RS & NR & EO).
  pose proof (kr_units _ _ Sh) as UP. pose proof (ec_cells _ _ _ _ _ _ EB) as CL.
  assert (LC : (length codes <> 0)%nat) by (destruct codes; [congruence|cbn; lia]).
  assert (CN : (fl_cells eng <> 0)%nat) by lia.
  apply (proj1 (infer_rows_F eng T' codes rec LC CN)) in RS as (LR & LRs & ROW).
  (* the hidden row of sample i at step t *)
  assert (HR : forall i t, (i < length batch)%nat -> (t < T')%nat ->
    let r := s_hidden (nth i (nth t rec []) dstep) in
    length r = kl_units l /\ forall j, (j < kl_units l)%nat -> in_dtype (q_hidden q) (nth j r 0) /\
      (Qabs (val (le_out e) (nth j r 0%Z) - hidden_at fn l b (nth i batch []) t j) <= d_out l (q_cell q) e Ls Ds Lt Dt X ex rho sigma t)%Q).
  { intros i t Hi Ht. cbv zeta. destruct (AT i Hi) as (A1 & A2 & A3).
    assert (NI : nth_error codes i = Some (nth i codes [])) by (apply nth_error_nth'; lia).
    pose proof (ROW i _ NI) as RR. rewrite CL, (ec_izp _ _ _ _ _ _ EB) in RR.
    assert (EM : map (fun t => map (fun v => i64 (v - zp0 (x_in e))) (nth t (nth i codes []) [])) (seq 0 T') =
                 map (map (fun v => i64 (v - zp0 (x_in e)))) (nth i codes [])).
    { transitivity (map (map (fun v => i64 (v - zp0 (x_in e)))) (map (fun t => nth t (nth i codes []) []) (seq 0 T'))); [now rewrite map_map|].
      f_equal. rewrite <- A2. apply map_nth_id. }
    rewrite EM in RR.
    destruct (run_close fn q l b e rho sigma Sh GD R0 FI NO qi IG IS Ls Ds Lt Dt X ex LS LT E0 (kl_seq l) eng G (nth i batch []) (nth i codes []) (rowb dstep i rec) EB
      (engine_fin fn q l b e rho sigma GD FI NO _ _ _ EB) ltac:(congruence)) with (t := t) as (R1 & R2 & R3).
    - intros t' Ht'. rewrite A1 in Ht'. destruct (A3 t' Ht') as (B1 & B2 & B3 & B4 & B5).
      split; [exact B2|]. split; [exact B1|]. split; [rewrite <- (ng_dtype _ _ IG); exact B4|]. split; [exact B5|exact B3].
    - apply COV, nth_In, Hi.
    - exact RR.
    - lia.
    - unfold rowb in R1, R2, R3. rewrite (nth_map_in (fun x => nth i x dstep) rec t []) in R1, R2, R3 by lia.
      split; [exact R1|]. intros j Hj. split; [apply R2, nth_In; lia|apply R3, Hj]. }
  assert (OR : forall i t, (i < length batch)%nat -> (t < T')%nat ->
     out_row o T' i t = if kl_seq l then Some (s_hidden (nth i (nth t rec []) dstep)) else if (t =? T' - 1)%nat then Some (s_hidden (nth i (nth t rec []) dstep)) else None).
  { intros i t Hi Ht. rewrite EO, (ec_seq _ _ _ _ _ _ EB).
    assert (LN : forall t, (t < T')%nat -> length (nth t rec []) = length codes) by (intros u Hu; apply LRs, nth_In; lia).
    destruct (kl_seq l); cbn [out_row].
    - rewrite (nth_map_seq (fun b0 => map (fun step => nth b0 step []) (map (map s_hidden) rec))) by lia. rewrite map_map.
      rewrite (nth_error_nth' _ []) by (rewrite map_length; lia). f_equal.
      rewrite (nth_map_in (fun x => nth i (map s_hidden x) []) rec t []) by lia.
      rewrite (nth_map_in s_hidden _ i dstep) by (rewrite LN; lia). reflexivity.
    - destruct (Nat.eqb_spec t (T' - 1)) as [->|]; [|reflexivity].
      assert (LL : last (map (map s_hidden) rec) [] = map s_hidden (nth (T' - 1) rec [])).
      { destruct (exists_last (l := rec)) as (u & x & EU); [exact NR|]. rewrite EU, map_app. cbn [map]. rewrite last_last.
        rewrite EU, app_length in LR. cbn in LR. rewrite app_nth2 by lia. replace (T' - 1 - length u)%nat with 0%nat by lia. reflexivity. }
      rewrite LL. rewrite (nth_error_nth' _ []) by (rewrite map_length, LN; lia). f_equal.
      rewrite (nth_map_in s_hidden _ i dstep) by (rewrite LN; lia). reflexivity. }
  split.
  - intros i t Hi Ht. rewrite (OR i t Hi Ht). destruct (kl_seq l); [split; [now left|discriminate]|].
    destruct (Nat.eqb_spec t (T' - 1)); split; try discriminate; try congruence; [now right|]. intros [|]; [discriminate|congruence].
  - intros i t row Hi Ht ER. rewrite (OR i t Hi Ht) in ER.
    assert (row = s_hidden (nth i (nth t rec []) dstep)) as ->.
    { destruct (kl_seq l); [congruence|]. destruct (t =? T' - 1)%nat; congruence. }
    apply HR; assumption.
Qed.


(** ** Without roundings the bound is that of C63 *)
Lemma d_pre_plain l e X ex g eh eh' : (eh == eh')%Q -> (d_pre l e X ex 0 0 g eh == b_pre l e X ex g eh')%Q.
Proof. intros H. unfold d_pre, b_pre, half. cbv zeta. rewrite H. ring. Qed.
Lemma d_gate_plain l e Ls Ds Lt Dt X ex g eh eh' : (eh == eh')%Q -> (d_gate l e Ls Ds Lt Dt X ex 0 0 g eh == b_gate l e Ls Ds Lt Dt X ex g eh')%Q.
Proof. intros H. unfold d_gate, b_gate, half. pose proof (d_pre_plain l e X ex g eh eh' H) as E. destruct (g =? 2)%nat; rewrite E; ring. Qed.
Lemma d_cell_plain l qc e Ls Ds Lt Dt X ex eh eh' ec ec' : (eh == eh')%Q -> (ec == ec')%Q ->
  (d_cell l qc e Ls Ds Lt Dt X ex 0 0 eh ec == b_cell l qc e Ls Ds Lt Dt X ex eh' ec')%Q.
Proof. intros H K. unfold d_cell, b_cell. cbv zeta. rewrite !(d_gate_plain l e Ls Ds Lt Dt X ex _ eh eh' H), K. ring. Qed.
Lemma d_hidden_plain l qc e Ls Ds Lt Dt X ex eh eh' ec ec' : (eh == eh')%Q -> (ec == ec')%Q ->
  (d_hidden l qc e Ls Ds Lt Dt X ex 0 0 eh ec == b_hidden l qc e Ls Ds Lt Dt X ex eh' ec')%Q.
Proof.
  intros H K. unfold d_hidden, b_hidden. cbv zeta. rewrite !(d_gate_plain l e Ls Ds Lt Dt X ex _ eh eh' H), (d_cell_plain l qc e Ls Ds Lt Dt X ex eh eh' ec ec' H K).
  unfold half. ring.
Qed.
Lemma d_state_plain l qc e Ls Ds Lt Dt X ex t :
  (fst (d_state l qc e Ls Ds Lt Dt X ex 0 0 t) == fst (b_state l qc e Ls Ds Lt Dt X ex t))%Q /\
  (snd (d_state l qc e Ls Ds Lt Dt X ex 0 0 t) == snd (b_state l qc e Ls Ds Lt Dt X ex t))%Q.
Proof.
  induction t as [|t [IH1 IH2]]; [split; reflexivity|]. cbn [d_state b_state].
  destruct (d_state l qc e Ls Ds Lt Dt X ex 0 0 t) as [eh ec], (b_state l qc e Ls Ds Lt Dt X ex t) as [eh' ec']. cbn [fst snd] in *. split.
  - rewrite (d_hidden_plain l qc e Ls Ds Lt Dt X ex eh eh' ec ec' IH1 IH2). reflexivity.
  - apply d_cell_plain; assumption.
Qed.
Theorem C90_bound : forall l qc e Ls Ds Lt Dt X ex t,
  (d_out l qc e Ls Ds Lt Dt X ex 0 0 t == b_out l qc e Ls Ds Lt Dt X ex t)%Q.
Proof.
  intros l qc e Ls Ds Lt Dt X ex t. unfold d_out, b_out. destruct (d_state_plain l qc e Ls Ds Lt Dt X ex t) as [H1 H2].
  destruct (d_state l qc e Ls Ds Lt Dt X ex 0 0 t) as [eh ec], (b_state l qc e Ls Ds Lt Dt X ex t) as [eh' ec']. apply d_hidden_plain; assumption.
Qed.

(** ** What the quantizer exports, with its scales rounded *)
Lemma mul_le_l z x y : (0 <= z)%Q -> (x <= y)%Q -> (z * x <= z * y)%Q.
Proof. intros Z H. rewrite !(Qmult_comm z). apply Qmult_le_compat_r; assumption. Qed.
Lemma good_rescaled u nd nd' q : rescaled u nd nd' -> node_good nd q -> node_good nd' q.
Proof. intros [Z D T L P N] [G1 G2 (z & G3 & G4)]. constructor; [congruence|exact P|]. exists z. split; [congruence|exact G4]. Qed.
Lemma zp0_rescaled u nd nd' : rescaled u nd nd' -> zp0 nd' = zp0 nd.
Proof. intros R. unfold zp0. now rewrite (rs_zp _ _ _ R). Qed.
Lemma scale_up u nd nd' : (0 <= u)%Q -> rescaled u nd nd' -> (n_scale nd <= n_scale nd' * (1 + u))%Q /\ (n_scale nd' * (1 - u) <= n_scale nd)%Q.
Proof. intros U R. pose proof (rs_near _ _ _ R) as H. apply Qabs_Qle_condition in H. split; lra. Qed.
(** a code that stood for w still does *)
Lemma val_rescaled u nd nd' q c w : (0 <= u)%Q -> (u <= 1)%Q -> short q -> node_good nd q -> rescaled u nd nd' -> in_dtype q c ->
  (Qabs (val nd c - w) <= n_scale nd * (1#2))%Q -> (Qabs (val nd' c - w) <= n_scale nd' * ((1#2) + u * inject_Z (2 ^ 17)))%Q.
Proof.
  intros U U1 Hs G R Hc H. destruct (scale_up u nd nd' U R) as [S1 S2]. pose proof (rs_pos _ _ _ R) as P. pose proof (code_abs nd q c Hs G Hc) as A.
  unfold val in *. rewrite (zp0_rescaled u nd nd' R). set (k := inject_Z (c - zp0 nd)) in *.
  assert (AK : (Qabs k <= inject_Z (2 ^ 16))%Q).
  { unfold k. change (Qabs (inject_Z (c - zp0 nd))) with (inject_Z (Z.abs (c - zp0 nd))). apply (proj1 (Zle_inj _ _)). exact A. }
  setoid_replace (n_scale nd' * k - w)%Q with ((n_scale nd * k - w) + (n_scale nd' - n_scale nd) * k)%Q by ring.
  eapply Qle_trans; [apply Qabs_triangle|].
  assert (B : (Qabs ((n_scale nd' - n_scale nd) * k) <= u * n_scale nd' * inject_Z (2 ^ 16))%Q).
  { rewrite Qabs_Qmult. apply Qle_trans with (u * n_scale nd' * Qabs k)%Q; [apply Qmult_le_compat_r; [apply (rs_near _ _ _ R)|apply Qabs_nonneg]|].
    apply mul_le_l; [apply Qmult_le_0_compat; lra|exact AK]. }
  assert (E : (inject_Z (2 ^ 17) == 2 * inject_Z (2 ^ 16))%Q) by reflexivity.
  assert (E1 : (1 <= inject_Z (2 ^ 16))%Q) by discriminate.
  set (h := inject_Z (2 ^ 16)) in *. rewrite E.
  assert (UN : (0 <= u * n_scale nd')%Q) by (apply Qmult_le_0_compat; lra).
  assert (UM : (u * n_scale nd' * 1 <= u * n_scale nd' * h)%Q) by (apply mul_le_l; assumption).
  lra.
Qed.
(** what fitted still almost does *)
Lemma fits_rescaled u nd nd' q v : (0 <= u)%Q -> (u <= 1)%Q -> short q -> node_good nd q -> rescaled u nd nd' ->
  (inject_Z (gmin (n_dtype nd)) - (1#2) <= real_code v (n_scale nd) (zp0 nd) <= inject_Z (gmax (n_dtype nd)) + (1#2))%Q ->
  fits_within (u * inject_Z (2 ^ 17)) nd' v.
Proof.
  intros U U1 Hs [GD GP (z & GZ & GI)] R [H1 H2]. pose proof (rs_pos _ _ _ R) as P. pose proof (rs_near _ _ _ R) as NR.
  unfold fits_within. cbv zeta. rewrite (zp0_rescaled u nd nd' R), (rs_dtype _ _ _ R), GD. rewrite GD in H1, H2.
  assert (EZ : zp0 nd = z) by (unfold zp0; now rewrite GZ). rewrite EZ in *. unfold real_code in *.
  assert (AV : (Qabs (v / n_scale nd) <= inject_Z (2 ^ 17))%Q).
  { unfold short in Hs. assert (D1 : (- inject_Z (2 ^ 16) <= inject_Z (gmin q) - inject_Z z)%Q).
    { rewrite <- inject_Z_minus, <- inject_Z_opp. apply (proj1 (Zle_inj _ _)). unfold in_dtype in GI. lia. }
    assert (D2 : (inject_Z (gmax q) - inject_Z z <= inject_Z (2 ^ 16))%Q).
    { rewrite <- inject_Z_minus. apply (proj1 (Zle_inj _ _)). unfold in_dtype in GI. lia. }
    assert (E17 : (inject_Z (2 ^ 16) + (1#2) <= inject_Z (2 ^ 17))%Q) by discriminate.
    apply Qabs_Qle_condition. split; lra. }
  assert (DV : (Qabs (v / n_scale nd' - v / n_scale nd) <= u * inject_Z (2 ^ 17))%Q).
  { setoid_replace (v / n_scale nd' - v / n_scale nd)%Q with ((v / n_scale nd) * ((n_scale nd - n_scale nd') / n_scale nd'))%Q by (field; split; lra).
    rewrite Qabs_Qmult. assert (B : (Qabs ((n_scale nd - n_scale nd') / n_scale nd') <= u)%Q).
    { unfold Qdiv. rewrite Qabs_Qmult, (Qabs_pos (/ n_scale nd')) by (apply Qlt_le_weak, Qinv_lt_0_compat, P). rewrite Qabs_Qminus.
      apply Qle_shift_div_r; [exact P|exact NR]. }
    rewrite (Qmult_comm u). apply Qle_trans with (Qabs (v / n_scale nd) * u)%Q; [apply mul_le_l; [apply Qabs_nonneg|exact B]|].
    apply Qmult_le_compat_r; assumption. }
  apply Qabs_Qle_condition in DV as [D1 D2]. split; lra.
Qed.
Lemma rounds_weaken rho rho' q c x x' : (0 <= rho)%Q -> rounds rho q c x -> (Qabs (x - x') + rho <= rho')%Q -> rounds rho' q c x'.
Proof.
  intros R0 (I & H) D. split; [exact I|]. pose proof (Qabs_nonneg (x - x')) as N.
  destruct H as [H|[[E H]|[E H]]].
  - left. setoid_replace (inject_Z c - x')%Q with ((inject_Z c - x) + (x - x'))%Q by ring. eapply Qle_trans; [apply Qabs_triangle|]. lra.
  - assert (A : (Qabs (x - x') <= rho')%Q) by lra. apply Qabs_Qle_condition in A as [A1 A2].
    destruct (Qlt_le_dec x' (inject_Z (gmax q))) as [L|L]; [left|right; left; split; assumption]. rewrite E. apply Qabs_Qle_condition. split; lra.
  - assert (A : (Qabs (x - x') <= rho')%Q) by lra. apply Qabs_Qle_condition in A as [A1 A2].
    destruct (Qlt_le_dec (inject_Z (gmin q)) x') as [L|L]; [left|right; right; split; assumption]. rewrite E. apply Qabs_Qle_condition. split; lra.
Qed.
(** the quantizer rounds *)
Lemma quant1_rounds q z s x : narrow q -> rounds 0 q (quant1 q z s x) (real_code x s z).
Proof.
  intros N. pose proof N as (N1 & N2 & N3). split; [apply q_round_range, N1|]. unfold quant1, real_code. rewrite q_round_clip by exact N1.
  rewrite <- clamp_clip by lia. set (r := (x / s + inject_Z z)%Q). destruct (Qfloor_bounds (r + (1#2))) as [F1 F2]. set (v := Qfloor (r + (1#2))) in *.
  unfold clamp. destruct (v <? gmin q) eqn:A; [|destruct (gmax q <? v) eqn:B].
  - apply Z.ltb_lt in A. assert (A1 : (inject_Z v + 1 <= inject_Z (gmin q))%Q).
    { change 1%Q with (inject_Z 1). rewrite <- inject_Z_plus. apply (proj1 (Zle_inj _ _)). lia. }
    right. right. split; [reflexivity|]. lra.
  - apply Z.ltb_lt in B. assert (B1 : (inject_Z (gmax q) + 1 <= inject_Z v)%Q).
    { change 1%Q with (inject_Z 1). rewrite <- inject_Z_plus. apply (proj1 (Zle_inj _ _)). lia. }
    right. left. split; [reflexivity|]. lra.
  - left. apply Qabs_Qle_condition. split; lra.
Qed.
Lemma table_rescaled u L rho nd nd' q f inp inp' out out' : (0 <= u)%Q -> (u <= 1#2)%Q -> short q -> bounded_lip f L 0 ->
  has_table nd q f inp out -> node_good inp q -> node_good out q -> rescaled u nd nd' -> rescaled u inp inp' -> rescaled u out out' ->
  (u * (L * n_scale inp' * inject_Z (2 ^ 16) + 2) <= rho * n_scale out')%Q -> table_within rho nd' q f inp' out'.
Proof.
  intros U U1 Hs (L0 & _ & FB & LI) HT GI GO RN RI RO SL. pose proof (short_narrow _ Hs) as N.
  pose proof (table_built _ _ _ _ _ HT) as LA. set (a := tab_act q f inp out) in *.
  exists a. split; [now rewrite (rs_lut _ _ _ RN)|]. intros c Hc. exists (tab1 q f inp out c). split.
  { apply (table_lookup nd q f inp out a c HT LA N (ng_zp _ _ GI) Hc). }
  pose proof (ng_pos _ _ GO) as PO. pose proof (rs_pos _ _ _ RO) as PO'. pose proof (rs_pos _ _ _ RI) as PI'.
  apply (rounds_weaken 0 rho q _ (real_code (f (inject_Z (c - zp0 inp) * n_scale inp)%Q) (n_scale out) (zp0 out)) _ ltac:(discriminate)).
  { apply quant1_rounds, N. }
  rewrite Qplus_0_r. rewrite (zp0_rescaled u out out' RO). unfold real_code, val. rewrite (zp0_rescaled u inp inp' RI).
  set (k := inject_Z (c - zp0 inp)) in *.
  assert (AK : (Qabs k <= inject_Z (2 ^ 16))%Q).
  { unfold k. change (Qabs (inject_Z (c - zp0 inp))) with (inject_Z (Z.abs (c - zp0 inp))). apply (proj1 (Zle_inj _ _)). apply (code_abs inp q c Hs GI Hc). }
  set (y := f (k * n_scale inp)%Q) in *. set (y' := f (n_scale inp' * k)%Q) in *.
  assert (DY : (Qabs (y - y') <= L * (u * n_scale inp' * inject_Z (2 ^ 16)))%Q).
  { eapply Qle_trans; [apply LI|]. rewrite Qplus_0_r. apply mul_le_l; [exact L0|].
    setoid_replace (k * n_scale inp - n_scale inp' * k)%Q with ((n_scale inp - n_scale inp') * k)%Q by ring. rewrite Qabs_Qmult.
    apply Qle_trans with (u * n_scale inp' * Qabs k)%Q; [apply Qmult_le_compat_r; [rewrite Qabs_Qminus; apply (rs_near _ _ _ RI)|apply Qabs_nonneg]|].
    apply mul_le_l; [apply Qmult_le_0_compat; lra|exact AK]. }
  (* y / so - y' / so' = ((y - y') + y (so' - so) / so) / so' *)
  setoid_replace (y / n_scale out + inject_Z (zp0 out) - (y' / n_scale out' + inject_Z (zp0 out)))%Q
    with (((y - y') + y * ((n_scale out' - n_scale out) / n_scale out)) / n_scale out')%Q by (field; split; lra).
  unfold Qdiv at 1. rewrite Qabs_Qmult, (Qabs_pos (/ n_scale out')) by (apply Qlt_le_weak, Qinv_lt_0_compat, PO').
  apply Qle_shift_div_r; [exact PO'|]. eapply Qle_trans; [apply Qabs_triangle|]. eapply Qle_trans; [|exact SL].
  assert (RB : (Qabs ((n_scale out' - n_scale out) / n_scale out) <= 2 * u)%Q).
  { unfold Qdiv. rewrite Qabs_Qmult, (Qabs_pos (/ n_scale out)) by (apply Qlt_le_weak, Qinv_lt_0_compat, PO).
    apply Qle_shift_div_r; [exact PO|]. eapply Qle_trans; [apply (rs_near _ _ _ RO)|].
    destruct (scale_up u out out' U RO) as [S1 S2]. 
    assert (H : (u * (n_scale out' * (1 - (1#2))) <= u * n_scale out)%Q).
    { apply mul_le_l; [exact U|]. eapply Qle_trans; [|exact S2]. apply mul_le_l; lra. }
    lra. }
  assert (YB : (Qabs y <= 1)%Q) by apply FB.
  assert (YR : (Qabs (y * ((n_scale out' - n_scale out) / n_scale out)) <= 1 * (2 * u))%Q).
  { rewrite Qabs_Qmult. apply Qle_trans with (Qabs y * (2 * u))%Q; [apply mul_le_l; [apply Qabs_nonneg|exact RB]|]. apply Qmult_le_compat_r; [exact YB|lra]. }
  lra.
Qed.
Lemma product_rescaled u a a' b b' : (0 <= u)%Q -> (u <= 1#2)%Q -> rescaled u a a' -> rescaled u b b' -> (0 < n_scale b)%Q ->
  (Qabs (n_scale a' * n_scale b' - n_scale a * n_scale b) <= 3 * u * (n_scale a' * n_scale b'))%Q.
Proof.
  intros U U1 RA RB PB. destruct (scale_up u b b' U RB) as [S1 _]. pose proof (rs_pos _ _ _ RA) as PA'. pose proof (rs_pos _ _ _ RB) as PB'.
  pose proof (rs_near _ _ _ RA) as NA. pose proof (rs_near _ _ _ RB) as NB.
  set (x := n_scale a) in *. set (x' := n_scale a') in *. set (y := n_scale b) in *. set (y' := n_scale b') in *.
  setoid_replace (x' * y' - x * y)%Q with (x' * (y' - y) + (x' - x) * y)%Q by ring.
  eapply Qle_trans; [apply Qabs_triangle|]. rewrite !Qabs_Qmult, (Qabs_pos x'), (Qabs_pos y) by lra.
  assert (H1 : (x' * Qabs (y' - y) <= x' * (u * y'))%Q) by (apply mul_le_l; [lra|exact NB]).
  assert (H2 : (Qabs (x' - x) * y <= u * x' * y)%Q) by (apply Qmult_le_compat_r; [exact NA|lra]).
  assert (H3 : (u * x' * y <= u * x' * (y' * (1 + u)))%Q) by (apply mul_le_l; [apply Qmult_le_0_compat; lra|exact S1]).
  assert (H4 : (u * x' * (y' * (1 + u)) <= u * x' * (y' * 2))%Q).
  { apply mul_le_l; [apply Qmult_le_0_compat; lra|]. apply mul_le_l; lra. }
  lra.
Qed.
Lemma bias_rescaled u a a' b b' c w : (0 <= u)%Q -> (u <= 1#2)%Q -> rescaled u a a' -> rescaled u b b' -> (0 < n_scale b)%Q -> Z.abs c <= 2 ^ 31 ->
  (Qabs (n_scale a * n_scale b * inject_Z c - w) <= n_scale a * n_scale b * (1#2))%Q ->
  (Qabs (n_scale a' * n_scale b' * inject_Z c - w) <= n_scale a' * n_scale b' * ((1#2) + u * inject_Z (2 ^ 34)))%Q.
Proof.
  intros U U1 RA RB PB HC H. pose proof (product_rescaled u a a' b b' U U1 RA RB PB) as D. pose proof (rs_pos _ _ _ RA) as PA'. pose proof (rs_pos _ _ _ RB) as PB'.
  assert (PP : (0 < n_scale a' * n_scale b')%Q) by (apply Qmult_lt_0_compat; assumption).
  set (p' := (n_scale a' * n_scale b')%Q) in *. set (p := (n_scale a * n_scale b)%Q) in *.
  assert (AC : (Qabs (inject_Z c) <= inject_Z (2 ^ 31))%Q).
  { change (Qabs (inject_Z c)) with (inject_Z (Z.abs c)). apply (proj1 (Zle_inj _ _)). exact HC. }
  setoid_replace (p' * inject_Z c - w)%Q with ((p * inject_Z c - w) + (p' - p) * inject_Z c)%Q by ring.
  eapply Qle_trans; [apply Qabs_triangle|]. rewrite Qabs_Qmult.
  assert (UP : (0 <= u * p')%Q) by (apply Qmult_le_0_compat; lra).
  assert (H1 : (Qabs (p' - p) * Qabs (inject_Z c) <= 3 * u * p' * inject_Z (2 ^ 31))%Q).
  { apply Qle_trans with (3 * u * p' * Qabs (inject_Z c))%Q; [apply Qmult_le_compat_r; [exact D|apply Qabs_nonneg]|]. apply mul_le_l; [lra|exact AC]. }
  apply Qabs_Qle_condition in D as [D1 D2].
  assert (E : (inject_Z (2 ^ 34) == 8 * inject_Z (2 ^ 31))%Q) by reflexivity. rewrite E.
  assert (E1 : (1 <= inject_Z (2 ^ 31))%Q) by discriminate. set (h := inject_Z (2 ^ 31)) in *.
  assert (UH : (u * p' * 1 <= u * p' * h)%Q) by (apply mul_le_l; assumption).
  lra.
Qed.
Lemma F2_at {A B} (R : A -> B -> Prop) xs ys k a b : Forall2 R xs ys -> (k < length xs)%nat -> R (nth k xs a) (nth k ys b).
Proof. intros F. revert k. induction F as [|x y xs ys H _ IH]; intros k Hk; [cbn in Hk; lia|]. destruct k as [|k]; [exact H|]. apply IH. cbn in Hk. lia. Qed.
(** The quantizer's export with its scales rounded is such a file, and its ranges cover the samples its calibration covered. *)
Theorem C90_exported : forall fn dt q l b T data input qi e e' u L rho,
  lstm_shaped l b T data -> good_ldt dt q -> node_good input qi -> short qi -> klstm_quantize fn dt l input T data = Ok e ->
  (forall g j, (g < 4)%nat -> (j < kl_units l)%nat -> gmin (q_bias q) < code (x_bias e g) 0 j < gmax (q_bias q)) ->
  bounded_lip (fn_sig fn) L 0 -> bounded_lip (fn_tanh fn) L 0 ->
  (0 <= u)%Q -> (u <= 1#2)%Q -> export_rescaled u e e' -> scale_slack u L e' rho ->
  keras_lstm l b /\ short_types q /\ lstm_file rho fn q l b e' /\
  forall xs, lstm_covered fn l b T data xs -> lstm_in_range rho fn q l b e' xs.
Proof.
  intros fn dt q l b T data input qi e e' u L rho Sh GD IG IS EQ NS LS LT U U1 [RI RO] [SC SG SA].
  destruct (export_ok fn dt q l b T data input Sh GD) as (e0 & E0 & EX). assert (e0 = e) by congruence. subst e0. clear E0.
  assert (U2 : (u <= 1)%Q) by lra.
  pose proof (le_len _ _ _ _ _ _ _ _ EX) as LEN.
  assert (AT : forall k, (k < 32)%nat -> rescaled u (nth k (le_ins e) dnode) (nth k (le_ins e') dnode)) by (intros k Hk; apply F2_at; [exact RI|lia]).
  pose proof (AT 0%nat ltac:(lia)) as R_in. pose proof (AT 21%nat ltac:(lia)) as R_cell. pose proof (AT 30%nat ltac:(lia)) as R_ai. pose proof (AT 31%nat ltac:(lia)) as R_act.
  assert (R_k : forall g, (g < 4)%nat -> rescaled u (x_kernel e g) (x_kernel e' g)) by (intros g Hg; apply AT; lia).
  assert (R_u : forall g, (g < 4)%nat -> rescaled u (x_rec e g) (x_rec e' g)) by (intros g Hg; apply AT; lia).
  assert (R_b : forall g, (g < 4)%nat -> rescaled u (x_bias e g) (x_bias e' g)) by (intros g Hg; apply AT; lia).
  assert (R_p : forall g, (g < 4)%nat -> rescaled u (x_pre e g) (x_pre e' g)) by (intros g Hg; apply AT; lia).
  assert (R_gi : forall g, (g < 4)%nat -> rescaled u (x_gate_in e g) (x_gate_in e' g)) by (intros g Hg; apply AT; lia).
  assert (R_g : forall g, (g < 4)%nat -> rescaled u (x_gate e g) (x_gate e' g)) by (intros g Hg; apply AT; lia).
  clear AT. fold (x_in e) (x_in e') in R_in. fold (x_cell e) (x_cell e') in R_cell. fold (x_act_in e) (x_act_in e') in R_ai. fold (x_act e) (x_act e') in R_act.
  assert (LE17 : (u * inject_Z (2 ^ 17) <= rho)%Q).
  { eapply Qle_trans; [|exact SC]. apply mul_le_l; [exact U|discriminate]. }
  assert (SK : short_types q).
  { constructor; [apply (gl_k _ _ GD)|apply (gl_u _ _ GD)|apply (gl_h _ _ GD)|apply (gl_c _ _ GD)|apply (gl_r _ _ GD)|apply (gl_cpos _ _ GD)|apply (gl_csym _ _ GD)]. }
  assert (WR : forall nd nd' qq rows w g m, short qq -> rescaled u nd nd' -> weights_ok nd qq (kl_units l) g m -> length m = rows -> w = entry m (kl_units l) g ->
     weights_within rho nd' qq rows (kl_units l) w).
  { intros nd nd' qq rows w g m Hs R [W1 W2 W3] EL EW. subst rows w. split; [apply (good_rescaled u nd nd' qq R W1)|].
    split; [unfold dims in *; rewrite (rs_tensor _ _ _ R); exact W2|].
    intros k j Hk Hj. assert (EC : code nd' k j = code nd k j) by (unfold code; now rewrite (rs_tensor _ _ _ R)). rewrite EC.
    destruct (W3 k j Hk Hj) as [I1 I2]. split; [exact I1|].
    eapply Qle_trans; [apply (val_rescaled u nd nd' qq _ _ U U2 Hs W1 R I1 I2)|]. apply mul_le_l; [apply Qlt_le_weak, (rs_pos _ _ _ R)|lra]. }
  assert (FR : forall nd nd' qq v, short qq -> node_good nd qq -> rescaled u nd nd' ->
     (inject_Z (gmin (n_dtype nd)) - (1#2) <= real_code v (n_scale nd) (zp0 nd) <= inject_Z (gmax (n_dtype nd)) + (1#2))%Q -> fits_within rho nd' v).
  { intros nd nd' qq v Hs G R H. destruct (fits_rescaled u nd nd' qq v U U2 Hs G R H) as [F1 F2]. unfold fits_within. cbv zeta. split; lra. }
  pose proof (gl_r _ _ GD) as Sr. pose proof (gl_c _ _ GD) as Sc. pose proof (gl_h _ _ GD) as SH.
  assert (GG : forall g, (g < 4)%nat -> node_good (x_gate e g) (q_rec_add q)) by (intros g Hg; rewrite <- (gl_act _ _ GD); apply (le_gate _ _ _ _ _ _ _ _ EX g Hg)).
  destruct (le_cell _ _ _ _ _ _ _ _ EX) as [CG CZ].
  split; [constructor; [apply (ls_bias _ _ _ _ Sh)|apply (ls_units _ _ _ _ Sh)|apply (ls_feat _ _ _ _ Sh)|apply (ls_blen _ _ _ _ Sh)|apply (ls_K _ _ _ _ Sh)|apply (ls_Ul _ _ _ _ Sh)|apply (ls_U _ _ _ _ Sh)]|].
  split; [exact SK|]. split.
  - constructor.
    + rewrite <- (F2_length _ _ _ RI). exact LEN.
    + exists qi. split; [|exact IS]. apply (good_rescaled u (x_in e)); [exact R_in|]. rewrite (le_input _ _ _ _ _ _ _ _ EX). exact IG.
    + intros g Hg. apply (WR (x_kernel e g) _ _ _ _ g (kl_K l) (gl_k _ _ GD) (R_k g Hg) (le_kernel _ _ _ _ _ _ _ _ EX g Hg)); reflexivity.
    + intros g Hg. apply (WR (x_rec e g) _ _ _ _ g (kl_U l) (gl_u _ _ GD) (R_u g Hg) (le_rec _ _ _ _ _ _ _ _ EX g Hg)); [apply (ls_Ul _ _ _ _ Sh)|reflexivity].
    + intros g Hg. pose proof (le_bias _ _ _ _ _ _ _ _ EX g Hg) as EB. pose proof (R_b g Hg) as RB.
      split; [rewrite (rs_zp _ _ _ RB), EB; reflexivity|]. split.
      { unfold dims. rewrite (rs_tensor _ _ _ RB), EB. unfold gate_bias, tensor_node. cbn [n_tensor map]. split; [reflexivity|].
        intros r [<-|[]]. rewrite map_length. apply part_length; [apply (ls_blen _ _ _ _ Sh)|exact Hg]. }
      intros j Hj. assert (EC : code (x_bias e' g) 0 j = code (x_bias e g) 0 j) by (unfold code; now rewrite (rs_tensor _ _ _ RB)). rewrite EC.
      pose proof (NS g j Hg Hj) as NSj. pose proof (gl_b _ _ GD) as WB.
      assert (A31 : Z.abs (code (x_bias e g) 0 j) <= 2 ^ 31) by (unfold within_int32 in WB; lia).
      split; [exact A31|]. pose proof (le_kernel _ _ _ _ _ _ _ _ EX g Hg) as [KG _ _]. pose proof (ng_pos _ _ KG) as PK.
      assert (PI : (0 < n_scale (x_in e))%Q) by (rewrite (le_input _ _ _ _ _ _ _ _ EX); apply (ng_pos _ _ IG)).
      eapply Qle_trans; [apply (bias_rescaled u (x_in e) (x_in e') (x_kernel e g) (x_kernel e' g) _ _ U U1 R_in (R_k g Hg) PK A31)|].
      * assert (Ebq : code (x_bias e g) 0 j = quant1 (q_bias q) 0 (n_scale (x_in e) * n_scale (x_kernel e g)) (nth (g * kl_units l + j) b 0%Q)).
        { rewrite EB. rewrite (le_input _ _ _ _ _ _ _ _ EX). unfold code, gate_bias, tensor_node. cbn [n_tensor map nth].
          rewrite (nth_map_in _ _ j 0%Q) by (rewrite part_length; [exact Hj|apply (ls_blen _ _ _ _ Sh)|exact Hg]). f_equal. apply part_nth, Hj. }
        rewrite Ebq. apply quant_bias_err; [exact WB|apply Qmult_lt_0_compat; assumption|]. rewrite <- Ebq. exact NSj.
      * apply mul_le_l; [apply Qlt_le_weak, Qmult_lt_0_compat; [apply (rs_pos _ _ _ R_in)|apply (rs_pos _ _ _ (R_k g Hg))]|lra].
    + intros g Hg. apply (good_rescaled u (x_pre e g)); [apply R_p, Hg|]. apply (le_pre _ _ _ _ _ _ _ _ EX g Hg).
    + intros g Hg. apply (good_rescaled u (x_gate e g)); [apply R_g, Hg|]. apply GG, Hg.
    + intros g Hg. apply (table_rescaled u L rho (x_gate_in e g) _ _ _ (x_pre e g) _ (x_gate e g) _ U U1 Sr).
      * unfold gate_fn. destruct (g =? 2)%nat; assumption.
      * apply (le_table _ _ _ _ _ _ _ _ EX g Hg).
      * apply (le_pre _ _ _ _ _ _ _ _ EX g Hg).
      * apply GG, Hg.
      * apply R_gi, Hg.
      * apply R_p, Hg.
      * apply R_g, Hg.
      * apply SG, Hg.
    + split; [apply (good_rescaled u (x_cell e)); assumption|]. rewrite (rs_zp _ _ _ R_cell). exact CZ.
    + apply (good_rescaled u (x_act e)); [exact R_act|]. apply (le_act _ _ _ _ _ _ _ _ EX).
    + apply (table_rescaled u L rho (x_act_in e) _ _ _ (x_cell e) _ (x_act e) _ U U1 Sc LT (le_act_table _ _ _ _ _ _ _ _ EX) CG (proj1 (le_act _ _ _ _ _ _ _ _ EX)) R_ai R_cell R_act SA).
    + apply (good_rescaled u (le_out e)); [exact RO|]. apply (le_hidden _ _ _ _ _ _ _ _ EX).
  - intros xs [CVp CVg CVc CVa CVh]. constructor.
    + intros t g j Ht Hg Hj. destruct (le_pre _ _ _ _ _ _ _ _ EX g Hg) as [PG PF]. apply (FR (x_pre e g) _ _ _ Sr PG (R_p g Hg)). apply PF, CVp; assumption.
    + intros t g j Ht Hg Hj. destruct (le_gate _ _ _ _ _ _ _ _ EX g Hg) as [_ PF]. apply (FR (x_gate e g) _ _ _ Sr (GG g Hg) (R_g g Hg)). apply PF, CVg; assumption.
    + intros t j Ht Hj. pose proof (le_cell_fit _ _ _ _ _ _ _ _ EX _ (CVc t j Ht Hj)) as [F1 F2]. set (v := cell_at fn l b xs t j) in *.
      pose proof (ng_pos _ _ CG) as PC. destruct (scale_up u (x_cell e) (x_cell e') U R_cell) as [S1 _]. pose proof (rs_pos _ _ _ R_cell) as PC'.
      assert (GM : (inject_Z (gmax (q_cell q)) <= inject_Z (2 ^ 16))%Q) by (apply (proj1 (Zle_inj _ _)); unfold short in Sc; lia).
      assert (GP : (0 <= inject_Z (gmax (q_cell q)))%Q) by (change 0%Q with (inject_Z 0); apply (proj1 (Zle_inj _ _)); pose proof (gl_cpos _ _ GD); lia).
      set (gm := inject_Z (gmax (q_cell q))) in *. set (s := n_scale (x_cell e)) in *. set (s' := n_scale (x_cell e')) in *.
      assert (AV : (Qabs v <= s * gm)%Q).
      { assert (EV : (v == s * (v / s))%Q) by (field; lra). rewrite EV, Qabs_Qmult, (Qabs_pos s) by lra. apply mul_le_l; [lra|]. apply Qabs_Qle_condition. split; assumption. }
      eapply Qle_trans; [exact AV|]. apply Qle_trans with (s' * (1 + u) * gm)%Q; [apply Qmult_le_compat_r; assumption|].
      setoid_replace (s' * (1 + u) * gm)%Q with (s' * (gm + u * gm))%Q by ring. apply mul_le_l; [lra|].
      assert (UG : (u * gm <= u * inject_Z (2 ^ 17))%Q).
      { apply mul_le_l; [exact U|]. eapply Qle_trans; [exact GM|discriminate]. }
      lra.
    + intros t j Ht Hj. destruct (le_act _ _ _ _ _ _ _ _ EX) as [PG PF]. apply (FR (x_act e) _ _ _ Sc PG R_act). apply PF, CVa; assumption.
    + intros t j Ht Hj. destruct (le_hidden _ _ _ _ _ _ _ _ EX) as [PG PF]. apply (FR (le_out e) _ _ _ SH PG RO). apply PF, CVh; assumption.
Qed.

(** ** Example: the layer of PropKLstm.v, exported, with its scales rounded to binary64 *)
Definition round_node (nd : node) : node := mknode (fl64 (n_scale nd)) (n_zp nd) (n_dtype nd) (n_tensor nd) (n_lut nd).
Definition ex_ef : lstm_export := Eval vm_compute in mkle (map round_node (le_ins ex_e)) (round_node (le_out ex_e)) (le_data ex_e).
(** a fraction n/2^k in range is a fair scale *)
Definition fairb (x : Q) : bool :=
  let k := Z.log2 (Zpos (Qden x)) in
  (Z.abs (Qnum x) <? 2 ^ 53) && Qeq_bool x (inject_Z (Qnum x) * two_to (- k)) && (k <=? 1074) && Qle_bool (two_to (-200)) x && Qle_bool x (two_to 200).
Lemma fairb_ok x : fairb x = true -> fair x.
Proof.
  unfold fairb. cbv zeta. set (k := Z.log2 (Z.pos (Qden x))). intros H. apply andb_prop in H as [H H5]. apply andb_prop in H as [H H4]. apply andb_prop in H as [H H3].
  apply andb_prop in H as [H1 H2]. apply Z.ltb_lt in H1. apply Qeq_bool_eq in H2. apply Z.leb_le in H3. apply Qle_bool_iff in H4, H5.
  split; [|split; assumption]. exists (Qnum x), (- k). pose proof (Z.log2_nonneg (Z.pos (Qden x))) as K0. fold k in K0.
  split; [exact H1|]. split; [lia|exact H2].
Qed.
Definition u52 : Q := 1 # 4503599627370496.
Definition sl : Q := 1 # 65536.
Lemma ex_e_in : x_in ex_e = ex_in. Proof. vm_cast_no_check (eq_refl ex_in). Qed.
Definition rescaledb (u : Q) (nd nd' : node) : bool :=
  Qle_bool (Qabs (n_scale nd' - n_scale nd)) (u * n_scale nd') && negb (Qle_bool (n_scale nd') 0).
Lemma ex_rescaled : export_rescaled u52 ex_e ex_ef.
Proof.
  assert (N : forall nd, rescaledb u52 nd (round_node nd) = true -> rescaled u52 nd (round_node nd)).
  { intros nd H. apply andb_prop in H as [H1 H2]. apply Qle_bool_iff in H1. constructor; try reflexivity; [|exact H1].
    apply Qnot_le_lt. intros C. apply Qle_bool_iff in C. rewrite C in H2. discriminate. }
  assert (A : forall l, forallb (fun nd => rescaledb u52 nd (round_node nd)) l = true -> Forall2 (rescaled u52) l (map round_node l)).
  { intros l0 H. rewrite forallb_forall in H. induction l0 as [|x r IH]; [constructor|]. constructor; [apply N, H; now left|]. apply IH. intros y Hy. apply H. now right. }
  assert (E1 : le_ins ex_ef = map round_node (le_ins ex_e)) by (vm_cast_no_check (eq_refl (le_ins ex_ef))).
  assert (E2 : le_out ex_ef = round_node (le_out ex_e)) by (vm_cast_no_check (eq_refl (le_out ex_ef))).
  split.
  - rewrite E1. apply A. vm_compute. reflexivity.
  - rewrite E2. apply N. vm_compute. reflexivity.
Qed.
Lemma in4 g : (g < 4)%nat -> In g [0%nat; 1%nat; 2%nat; 3%nat]. Proof. intros H. cbn. lia. Qed.
Lemma ex_slack : scale_slack u52 1 ex_ef sl.
Proof.
  assert (C : forallb (fun g => Qle_bool (u52 * (1 * n_scale (x_pre ex_ef g) * inject_Z (2 ^ 16) + 2)) (sl * n_scale (x_gate ex_ef g))) [0%nat; 1%nat; 2%nat; 3%nat] = true)
    by (vm_compute; reflexivity).
  rewrite forallb_forall in C. constructor.
  - discriminate.
  - intros g Hg. apply Qle_bool_iff, C, in4, Hg.
  - apply Qle_bool_iff. vm_compute. reflexivity.
Qed.
Lemma ex_numbers sq : lstm_numbers_ok (ex_l sq) ex_ef sl.
Proof.
  assert (C : forallb (fun g => fairb (n_scale (x_kernel ex_ef g)) && fairb (n_scale (x_rec ex_ef g)) && fairb (n_scale (x_pre ex_ef g)) && fairb (n_scale (x_gate ex_ef g)) &&
     Qle_bool (n_scale (x_kernel ex_ef g) * n_scale (x_in ex_ef) / (n_scale (le_out ex_ef) * n_scale (x_rec ex_ef g)) * inject_Z 2) (inject_Z (2 ^ 19)) &&
     Qle_bool (u49 * (n_scale (x_kernel ex_ef g) * n_scale (x_in ex_ef) * inject_Z (2 * 2 ^ 32) / n_scale (x_pre ex_ef g)
            + n_scale (x_rec ex_ef g) * n_scale (le_out ex_ef) * inject_Z (2 * 2 ^ 32) / n_scale (x_pre ex_ef g)
            + n_scale (x_rec ex_ef g) * n_scale (le_out ex_ef) / n_scale (x_pre ex_ef g) + inject_Z (2 ^ 16))) sl) [0%nat; 1%nat; 2%nat; 3%nat] = true)
    by (vm_compute; reflexivity).
  rewrite forallb_forall in C.
  assert (D : forall g, (g < 4)%nat -> _) by (intros g Hg; exact (C g (in4 g Hg))). clear C.
  assert (F : forallb (fun s => fairb s) [n_scale (x_in ex_ef); n_scale (le_out ex_ef); n_scale (x_cell ex_ef); n_scale (x_act ex_ef)] = true) by (vm_compute; reflexivity).
  rewrite forallb_forall in F.
  constructor.
  - apply fairb_ok, F. cbn [In]. tauto.
  - apply fairb_ok, F. cbn [In]. tauto.
  - apply fairb_ok, F. cbn [In]. tauto.
  - apply fairb_ok, F. cbn [In]. tauto.
  - intros g Hg. specialize (D g Hg). apply andb_prop in D as [D _]. apply andb_prop in D as [D _]. apply andb_prop in D as [D _]. apply andb_prop in D as [D _]. apply andb_prop in D as [D _]. apply fairb_ok, D.
  - intros g Hg. specialize (D g Hg). apply andb_prop in D as [D _]. apply andb_prop in D as [D _]. apply andb_prop in D as [D _]. apply andb_prop in D as [D _]. apply andb_prop in D as [_ D]. apply fairb_ok, D.
  - intros g Hg. specialize (D g Hg). apply andb_prop in D as [D _]. apply andb_prop in D as [D _]. apply andb_prop in D as [D _]. apply andb_prop in D as [_ D]. apply fairb_ok, D.
  - intros g Hg. specialize (D g Hg). apply andb_prop in D as [D _]. apply andb_prop in D as [D _]. apply andb_prop in D as [_ D]. apply fairb_ok, D.
  - discriminate.
  - reflexivity.
  - intros g Hg. specialize (D g Hg). apply andb_prop in D as [D _]. apply andb_prop in D as [_ D]. apply Qle_bool_iff in D. exact D.
  - apply Qle_bool_iff. vm_compute. reflexivity.
  - apply Qle_bool_iff. vm_compute. reflexivity.
  - apply Qle_bool_iff. vm_compute. reflexivity.
  - intros g Hg. specialize (D g Hg). apply andb_prop in D as [_ D]. apply Qle_bool_iff in D. exact D.
  - apply Qle_bool_iff. vm_compute. reflexivity.
  - apply Qle_bool_iff. vm_compute. reflexivity.
Qed.
(** it is a file of the layer, the engine runs it, and it returns the codes of the exact engine *)
Definition ex_run_f (sq : bool) (codes : list (list (list Z))) : res lstm_out :=
  do g <- lstm_from_model_f (le_ins ex_ef) (le_out ex_ef) sq; do r <- lstm_infer_f g 2 codes; Ok (fst r).
Lemma lip1 f L : bounded_lip f L 0 -> (L <= 1)%Q -> bounded_lip f 1 0.
Proof.
  intros (A & B & C & D) H. split; [discriminate|]. split; [discriminate|]. split; [exact C|]. intros a c. eapply Qle_trans; [apply D|].
  apply Qplus_le_compat; [|discriminate]. apply Qmult_le_compat_r; [exact H|apply Qabs_nonneg].
Qed.
Example C90_example :
  keras_lstm (ex_l true) ex_b /\ short_types ex_q /\ lstm_file sl hfn ex_q (ex_l true) ex_b ex_ef /\ lstm_numbers_ok (ex_l true) ex_ef sl /\
  (forall xs, In xs ex_data -> lstm_in_range sl hfn ex_q (ex_l true) ex_b ex_ef xs) /\
  Forall2 (stands_for (x_in ex_ef) 1 2 1 u52) [[[100]; [-50]]; [[50]; [-100]]] ex_data /\
  match ex_run_f true [[[100]; [-50]]; [[50]; [-100]]] with Ok (OSeq m) => map thousandths m | _ => [] end = [[[3; 244]; [153; -336]]; [[195; 156]; [116; -528]]].
Proof.
  destruct (C90_exported hfn ldt_default ex_q (ex_l true) ex_b 2 ex_data ex_in q_i8 ex_e ex_ef u52 1 sl (ex_shaped true) default_good (proj1 ex_in_good) (proj2 ex_in_good) ex_quantized
    (lf_bias _ _ _ ex_file_ok) (lip1 _ _ hsig_lip ltac:(discriminate)) (lip1 _ _ htanh_lip ltac:(discriminate)) ltac:(discriminate) ltac:(discriminate) ex_rescaled ex_slack) as (A & B & C & D).
  split; [exact A|]. split; [exact B|]. split; [exact C|]. split; [apply ex_numbers|]. split; [intros xs Hx; apply D, ex_covered, Hx|]. split; [|vm_compute; reflexivity].
  assert (H : forall c d x y, in_dtype q_i8 c -> in_dtype q_i8 d -> (Qabs x <= 1)%Q -> (Qabs y <= 1)%Q ->
    (Qabs (val (x_in ex_ef) c - x) <= u52)%Q -> (Qabs (val (x_in ex_ef) d - y) <= u52)%Q -> stands_for (x_in ex_ef) 1 2 1 u52 [[c]; [d]] [[x]; [y]]).
  { intros c d x y Hc Hd Hx Hy Ex Ey. split; [reflexivity|]. split; [reflexivity|].
    intros [|[|t]] Ht; [| |lia]; cbn [nth].
    - split; [reflexivity|]. split; [reflexivity|]. split; [unfold abssum, sumQ; cbn [map fold_right]; lra|].
      split; [intros v [<-|[]]; exact Hc|]. intros [|k] Hk; [exact Ex|lia].
    - split; [reflexivity|]. split; [reflexivity|]. split; [unfold abssum, sumQ; cbn [map fold_right]; lra|].
      split; [intros v [<-|[]]; exact Hd|]. intros [|k] Hk; [exact Ey|lia]. }
  unfold ex_data. constructor; [|constructor; [|constructor]]; apply H; try discriminate; unfold in_dtype; cbn; lia.
Qed.
(** the bound after the first step, in thousandths *)
Example C90_example_bound : Qround_even (d_out (ex_l true) q_i8 ex_ef (1#4) 0 1 0 1 u52 sl sl 0 * 1000) = 69.
Proof. vm_compute. reflexivity. Qed.

(** The binary64 engine, too, refuses an operator with fewer than 32 inputs, and reads only the first 32. *)
Theorem C90_operator_inputs : forall ins out sq,
  ((length ins <= 21)%nat -> lstm_from_model_f ins out sq = Err EIndexError) /\
  ((22 <= length ins <= 31)%nat -> lstm_from_model_f ins out sq = Err EValueError) /\
  ((32 <= length ins)%nat -> forall more, lstm_from_model_f (ins ++ more) out sq = lstm_from_model_f ins out sq).
Proof.
  intros ins out sq. unfold lstm_from_model_f. split; [|split].
  - intros H. destruct (Nat.ltb_spec (length ins) 22); [reflexivity|lia].
  - intros H. destruct (Nat.ltb_spec (length ins) 22); [lia|]. destruct (Nat.ltb_spec (length ins) 32); [reflexivity|lia].
  - intros H more. rewrite app_length. destruct (Nat.ltb_spec (length ins + length more) 22); [lia|]. destruct (Nat.ltb_spec (length ins) 22); [lia|].
    destruct (Nat.ltb_spec (length ins + length more) 32); [lia|]. destruct (Nat.ltb_spec (length ins) 32); [lia|].
    cbv zeta. assert (N : forall k, (k < 32)%nat -> nth k (ins ++ more) dnode = nth k ins dnode) by (intros k Hk; apply app_nth1; lia).
    cbn [Nat.add Nat.mul]. rewrite !N by lia. reflexivity.
Qed.
