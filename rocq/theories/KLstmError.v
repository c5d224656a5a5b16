(** The engine running an exported LSTM: error of every step (for PropKLstm.v) *)
From Verif Require Import Base BaseProofs DtypeModel DtypeProofs QuantModel QuantProofs LutModel LutProofs FcModel FcProofs FcLayer
  EngineModel EngineProofs DistModel DistProofs BuildModel PipeModel LstmModel KLstmModel PropCore PropFc PropEngine PropDist PropNodeLut PipeSpec PipeProofs
  LstmProofs PropLstm KLstmSpec KLstmProofs.
From Verif Require NodeModel.
From Coq Require Import Lqa Qminmax.
Open Scope Z_scope.
Open Scope list_scope.

(** ** sums *)
Lemma sumQ_upto_le n (f g : nat -> Q) : (forall k, (k < n)%nat -> (f k <= g k)%Q) -> (sumQ_upto n f <= sumQ_upto n g)%Q.
Proof.
  intros H. unfold sumQ_upto, sum_upto.
  assert (G : forall ks, (forall k, In k ks -> (k < n)%nat) -> (fold_right Qplus 0 (map f ks) <= fold_right Qplus 0 (map g ks))%Q).
  { induction ks as [|k ks IH]; intros Hk; [apply Qle_refl|]. cbn [map fold_right]. apply Qplus_le_compat; [apply H, Hk; now left|].
    apply IH. intros; apply Hk. now right. }
  apply G. intros k Hk. apply in_seq in Hk. lia.
Qed.
Lemma lin_bound n (w x : nat -> Q) ex ew W X : (0 <= ex)%Q -> (0 <= ew)%Q ->
  (sumQ_upto n (fun i => Qabs (w i)) <= W)%Q -> (sumQ_upto n (fun i => Qabs (x i)) <= X)%Q ->
  (sumQ_upto n (fun i => ex * Qabs (w i) + ew * Qabs (x i) + ex * ew) <= ex * W + ew * X + nq n * (ex * ew))%Q.
Proof.
  intros Ex Ew HW HX.
  rewrite (sumQ_upto_split n (fun i => ex * Qabs (w i) + ew * Qabs (x i))%Q (fun _ => ex * ew)%Q).
  rewrite (sumQ_upto_split n (fun i => ex * Qabs (w i))%Q (fun i => ew * Qabs (x i))%Q).
  rewrite !sumQ_upto_scale, sumQ_upto_const. unfold nq.
  apply Qplus_le_compat; [|lra]. apply Qplus_le_compat.
  - rewrite !(Qmult_comm ex). apply Qmult_le_compat_r; assumption.
  - rewrite !(Qmult_comm ew). apply Qmult_le_compat_r; assumption.
Qed.
Lemma colsum_ge m n g j : (j < n)%nat -> (sumQ_upto (length m) (fun k => Qabs (entry m n g k j)) <= colsum m n g)%Q.
Proof.
  intros Hj. unfold colsum. apply fold_max_in. apply (in_map (fun j => sumQ_upto (length m) (fun k => Qabs (entry m n g k j)))). apply in_seq. lia.
Qed.
Lemma colsum_nonneg m n g : (0 <= colsum m n g)%Q.
Proof. unfold colsum. generalize (map (fun j => sumQ_upto (length m) (fun k => Qabs (entry m n g k j))) (seq 0 n)). intros u. destruct u; [apply Qle_refl|]. cbn [fold_right]. induction u; cbn [fold_right] in *; [apply Q.le_max_r|]. eapply Qle_trans; [apply IHu|]. apply Q.max_le_compat_l. apply Q.le_max_r. Qed.
Lemma dot_col_exact j xc (k : list (list Z)) xq zx w zw : length xc = length xq -> length w = length xq -> length k = length xq ->
  (forall i, (i < length xq)%nat -> nth i xc 0 = nth i xq 0 - zx) ->
  (forall i, (i < length xq)%nat -> nth j (nth i k []) 0 = nth i w 0 - zw) ->
  dot_col j xc k = sumZ_upto (length xq) (fun i => (nth i xq 0 - zx) * (nth i w 0 - zw)).
Proof.
  intros L1 L2 L3 Hx Hk. unfold dot_col, sumZ_upto, sum_upto. change (fold_right Z.add 0) with sumZ. f_equal.
  apply nth_ext with (d := 0) (d' := 0).
  - rewrite map2_length, map_length, seq_length by lia. lia.
  - intros i Hi. rewrite map2_length in Hi by lia. rewrite map2_nth with (da := 0) (db := @nil Z) by lia.
    rewrite nth_map_seq by lia. rewrite Hx, Hk by lia. reflexivity.
Qed.
Lemma nth_map0 (f : nat -> Z) n i : (i < n)%nat -> nth i (map f (seq 0 n)) 0 = f i.
Proof. apply nth_map_seq. Qed.

(** clamping a real code towards one that is at most [m] outside the range *)
Lemma clampQ_near lo hi a r m : lo <= hi -> (0 <= m)%Q -> (inject_Z lo - m <= r <= inject_Z hi + m)%Q -> (Qabs (clampQ lo hi a - r) <= Qabs (a - r) + m)%Q.
Proof.
  intros L Hm [R1 R2]. assert (LQ : (inject_Z lo <= inject_Z hi)%Q) by (apply (proj1 (Zle_inj _ _)); exact L).
  unfold clampQ. destruct (Qlt_le_dec a (inject_Z lo)); [|destruct (Qlt_le_dec (inject_Z hi) a)].
  - apply Qabs_Qle_condition. pose proof (Qle_Qabs (r - a)) as A. rewrite Qabs_Qminus in A. pose proof (Qabs_nonneg (a - r)). split; lra.
  - apply Qabs_Qle_condition. pose proof (Qle_Qabs (a - r)) as A. pose proof (Qabs_nonneg (a - r)). split; lra.
  - lra.
Qed.
Lemma prod_close x y x' y' ex ey Y : (0 <= ex)%Q -> (Qabs (x' - x) <= ex)%Q -> (Qabs (y' - y) <= ey)%Q -> (Qabs x <= 1)%Q -> (Qabs y <= Y)%Q ->
  (Qabs (x' * y' - x * y) <= (1 + ex) * ey + Y * ex)%Q.
Proof.
  intros E0 Hx Hy Bx By.
  setoid_replace (x' * y' - x * y)%Q with (x' * (y' - y) + y * (x' - x))%Q by ring.
  eapply Qle_trans; [apply Qabs_triangle|]. rewrite !Qabs_Qmult.
  assert (Bx' : (Qabs x' <= 1 + ex)%Q).
  { setoid_replace x' with (x + (x' - x))%Q by ring. eapply Qle_trans; [apply Qabs_triangle|]. lra. }
  apply Qplus_le_compat.
  - apply Qle_trans with ((1 + ex) * Qabs (y' - y))%Q; [apply Qmult_le_compat_r; [exact Bx'|apply Qabs_nonneg]|].
    rewrite !(Qmult_comm (1 + ex)). apply Qmult_le_compat_r; [exact Hy|lra].
  - apply Qle_trans with (Y * Qabs (x' - x))%Q; [apply Qmult_le_compat_r; [exact By|apply Qabs_nonneg]|].
    rewrite !(Qmult_comm Y). apply Qmult_le_compat_r; [exact Hx|]. eapply Qle_trans; [apply Qabs_nonneg|exact By].
Qed.

(** ** tables *)
Definition tab1 (q : gdtype) (f : Q -> Q) (inp out : node) (v : Z) : Z :=
  quant1 q (zp0 out) (n_scale out) (f (inject_Z (v - zp0 inp) * n_scale inp))%Q.
Lemma table_lookup nd q f inp out a v : has_table nd q f inp out -> lut_from_node (n_lut nd) = Ok a -> narrow q ->
  (exists z, n_zp inp = Some z /\ in_dtype q z) -> in_dtype q v -> lookup (la_table a) (v + la_offset a) = Ok (tab1 q f inp out v).
Proof.
  intros HT LA N (z & Z1 & Z2) Hr. rewrite HT in LA. cbn in LA.
  match type of LA with Ok ?t = _ => assert (E : a = t) by congruence end. subst a. clear LA.
  cbn [la_table la_offset lookup]. pose proof N as (N1 & N2 & N3).
  pose proof (C33_fresh_lookup q f (n_scale inp) (zp0 inp) (n_scale out) (zp0 out) v N1 Hr) as E.
  unfold NodeModel.lut_call in E.
  transitivity (py_index (NodeModel.l_table (table_of q f inp out)) (v + NodeModel.lut_offset (table_of q f inp out))); [reflexivity|].
  unfold table_of. rewrite E. f_equal.
  transitivity (quant1 q (zp0 out) (n_scale out) (f (dequant1 (zp0 inp) (n_scale inp) v))); [reflexivity|].
  rewrite (dequant1_nowrap q); [reflexivity|exact N1| |exact Hr].
  unfold zp0. rewrite Z1. unfold zp_nowrap, in_dtype, within_int32 in *. lia.
Qed.
Lemma table_row nd q f inp out a r : has_table nd q f inp out -> lut_from_node (n_lut nd) = Ok a -> narrow q ->
  (exists z, n_zp inp = Some z /\ in_dtype q z) -> (forall v, In v r -> in_dtype q v) -> lut_row a r = Ok (map (tab1 q f inp out) r).
Proof. intros HT LA N Z Hr. unfold lut_row. apply mapM_ok_map. intros v Hv. eapply table_lookup; eauto. Qed.
Lemma tab1_close q f inp out v p eps L D data : narrow q -> node_good out q -> nfits out data -> in_hull data (f p) -> bounded_lip f L D ->
  (0 <= eps)%Q -> (Qabs (val inp v - p) <= eps)%Q ->
  in_dtype q (tab1 q f inp out v) /\ (Qabs (val out (tab1 q f inp out v) - f p) <= L * eps + D + n_scale out * (1#2))%Q.
Proof.
  intros N [Dt P (z & Z1 & Z2)] F H (L0 & D0 & _ & LI) E0 HV. specialize (F _ H). assert (EZ : zp0 out = z) by (unfold zp0; now rewrite Z1).
  unfold val, tab1 in *. rewrite EZ, Dt in *.
  apply quant1_near; [exact N|exact P| |exact F|].
  - assert (0 <= L * eps)%Q by (apply Qmult_le_0_compat; assumption). lra.
  - eapply Qle_trans; [apply LI|]. apply Qplus_le_compat; [|lra]. rewrite !(Qmult_comm L). apply Qmult_le_compat_r; [|exact L0].
    rewrite (Qmult_comm (inject_Z _)). exact HV.
Qed.

(** ** building the engine's layer *)
Lemma short_bits q c : short q -> in_dtype q c -> - 2 ^ 16 <= c <= 2 ^ 16.
Proof. unfold short, in_dtype. lia. Qed.
Lemma short_diff q c z : short q -> in_dtype q c -> in_dtype q z -> Z.abs (c - z) <= 2 ^ 16.
Proof. unfold short, in_dtype. lia. Qed.
Lemma centred_weights nd q n g m : short q -> weights_ok nd q n g m ->
  exists C, centred nd = Ok C /\ length C = length m /\ (forall r, In r C -> length r = n) /\
    forall k j, (k < length m)%nat -> (j < n)%nat -> nth j (nth k C []) 0 = code nd k j - zp0 nd.
Proof.
  intros Hs [[Dt P (z & Z1 & Z2)] [D1 D2] W]. unfold centred. rewrite Z1. eexists. split; [reflexivity|].
  split; [now rewrite map_length|]. split; [intros r Hr; apply in_map_iff in Hr as (r0 & <- & H0); rewrite map_length; now apply D2|].
  intros k j Hk Hj. assert (Lk : length (nth k (n_tensor nd) []) = n) by (apply D2, nth_In; lia).
  rewrite (nth_map_in _ (n_tensor nd) k []) by lia. rewrite (nth_map_in _ _ j 0) by lia. fold (code nd k j).
  destruct (W k j Hk Hj) as [I _]. pose proof (short_diff q _ _ Hs I Z2). unfold zp0. rewrite Z1. apply i64_id. lia.
Qed.
Definition prev_h (h : list Z) (ss : list step_rec) (t : nat) : list Z := match t with O => h | S t' => s_hidden (nth t' ss dstep) end.
Definition prev_c (c : list Z) (ss : list step_rec) (t : nat) : list Z := match t with O => c | S t' => s_cell (nth t' ss dstep) end.
Lemma row_run_nth eng : forall xs h c ss, row_run eng h c xs = Ok ss -> forall t, (t < length xs)%nat ->
  step_row eng (prev_h h ss t) (prev_c c ss t) (nth t xs []) = Ok (nth t ss dstep).
Proof.
  induction xs as [|x xs IH]; intros h c ss H t Ht; [cbn in Ht; lia|]. cbn [row_run] in H.
  destruct (step_row eng h c x) as [s0|] eqn:E0; [|discriminate]. cbn [rbind] in H.
  destruct (row_run eng (s_hidden s0) (s_cell s0) xs) as [ss0|] eqn:E1; [|discriminate]. cbn [rbind] in H.
  assert (ss = s0 :: ss0) by congruence. subst ss. destruct t as [|t]; [exact E0|].
  cbn [nth]. specialize (IH _ _ _ E1 t ltac:(cbn in Ht; lia)). destruct t as [|t]; exact IH.
Qed.
Lemma state_snoc fn l b xs t : (t < length xs)%nat -> state fn l b (firstn (S t) xs) = lnext fn l b (state fn l b (firstn t xs)) (nth t xs []).
Proof.
  intros H. unfold state. assert (E : firstn (S t) xs = firstn t xs ++ [nth t xs []]).
  { revert xs H. induction t as [|t IH]; intros [|x xs] H; cbn in H; try lia; [reflexivity|]. cbn [firstn app nth]. f_equal. apply IH. lia. }
  rewrite E, fold_left_app. reflexivity.
Qed.
Section Run.
  Variables (fn : lfns) (q : lqs) (dt : ldtypes) (l : klstm) (b : list Q) (T : nat) (data : list (list (list Q))) (input : node) (qi : gdtype) (e : lstm_export).
  Hypothesis Sh : lstm_shaped l b T data.
  Hypothesis GD : good_ldt dt q.
  Hypothesis EX : lstm_exported fn q l b T data input e.
  Hypothesis FO : lstm_file_ok l (q_bias q) e.
  Hypothesis IG : node_good input qi.
  Hypothesis IS : short qi.
  Notation n := (kl_units l).
  Notation nf := (length (kl_K l)).
  Definition gnode (g : nat) : gate_nodes := mkgn (x_kernel e g) (x_rec e g) (x_bias e g) (x_pre e g) (x_gate_in e g) (x_gate e g).

  Record gate_built (g : nat) (G : gate) : Prop := {
    gb_ok : build_gate input (le_out e) (gnode g) = Ok G;
    gb_klen : length (g_kernel G) = nf; gb_krow : forall r, In r (g_kernel G) -> length r = n;
    gb_k : forall k j, (k < nf)%nat -> (j < n)%nat -> nth j (nth k (g_kernel G) []) 0 = code (x_kernel e g) k j - zp0 (x_kernel e g);
    gb_ulen : length (g_rec G) = n;
    gb_u : forall k j, (k < n)%nat -> (j < n)%nat -> nth j (nth k (g_rec G) []) 0 = code (x_rec e g) k j - zp0 (x_rec e g);
    gb_b : forall j, (j < n)%nat -> nth j (g_bias G) 0 = code (x_bias e g) 0 j;
    gb_M1 : g_M1 G = (n_scale (x_kernel e g) * n_scale input / (n_scale (le_out e) * n_scale (x_rec e g)))%Q }.
  Lemma py_div_nz x y : (0 < y)%Q -> py_div x y = Ok (x / y)%Q.
  Proof. intros P. unfold py_div. destruct (Qeq_bool y 0) eqn:E; [apply Qeq_bool_iff in E; lra|reflexivity]. Qed.
  Lemma gate_builds g : (g < 4)%nat -> exists G, gate_built g G.
  Proof.
    intros Hg. destruct (centred_weights _ _ _ _ _ (gl_k _ _ GD) (le_kernel _ _ _ _ _ _ _ _ EX g Hg)) as (K & EK & K1 & K2 & K3).
    destruct (centred_weights _ _ _ _ _ (gl_u _ _ GD) (le_rec _ _ _ _ _ _ _ _ EX g Hg)) as (U & EU & U1 & U2 & U3).
    pose proof (le_bias _ _ _ _ _ _ _ _ EX g Hg) as EB.
    assert (CB : centred (x_bias e g) = Ok (map (map (fun v => i64 (v - 0))) (n_tensor (x_bias e g)))) by (rewrite EB; reflexivity).
    eexists. constructor.
    - unfold build_gate, gnode. cbn [gn_kernel gn_rec gn_bias gn_radd]. rewrite EK, EU, CB. cbn [rbind].
      assert (PH := ng_pos _ _ (proj1 (le_hidden _ _ _ _ _ _ _ _ EX))). assert (PR := ng_pos _ _ (proj1 (le_pre _ _ _ _ _ _ _ _ EX g Hg))).
      rewrite py_div_nz by (apply Qmult_lt_0_compat; [exact PH|apply (ng_pos _ _ (wo_good _ _ _ _ _ (le_rec _ _ _ _ _ _ _ _ EX g Hg)))]). cbn [rbind].
      rewrite py_div_nz by exact PR. cbn [rbind]. reflexivity.
    - exact K1.
    - exact K2.
    - exact K3.
    - cbn [g_rec]. rewrite U1. apply (ls_Ul _ _ _ _ Sh).
    - cbn [g_rec]. intros k j Hk Hj. apply U3; [rewrite (ls_Ul _ _ _ _ Sh); exact Hk|exact Hj].
    - cbn [g_bias]. intros j Hj.
      assert (LB : length (nth 0 (n_tensor (x_bias e g)) []) = n).
      { rewrite EB. unfold gate_bias, tensor_node. cbn [n_tensor map nth]. rewrite map_length. apply part_length; [apply (ls_blen _ _ _ _ Sh)|exact Hg]. }
      assert (E : hd [] (map (map (fun v => i64 (v - 0))) (n_tensor (x_bias e g))) = map (fun v => i64 (v - 0)) (nth 0 (n_tensor (x_bias e g)) [])).
      { destruct (n_tensor (x_bias e g)); reflexivity. }
      rewrite E. rewrite (nth_map_in _ _ j 0) by lia. fold (code (x_bias e g) 0 j). rewrite Z.sub_0_r.
      pose proof (lf_bias _ _ _ FO g j Hg Hj) as B. pose proof (gl_b _ _ GD) as W. unfold within_int32 in W.
      apply i64_id. lia.
    - reflexivity.
  Qed.
  Lemma from_model_eq sq : lstm_from_model (le_ins e) (le_out e) sq =
    lstm_build input (le_out e) (x_cell e) (x_act_in e) (x_act e) (gnode 0) (gnode 1) (gnode 2) (gnode 3) sq.
  Proof. unfold lstm_from_model. rewrite (le_len _ _ _ _ _ _ _ _ EX). rewrite <- (le_input _ _ _ _ _ _ _ _ EX). reflexivity. Qed.

  Definition tab_act (q0 : gdtype) (f : Q -> Q) (inp out : node) : lutact :=
    mkact (Full (NodeModel.l_table (table_of q0 f inp out))) (NodeModel.lut_offset (table_of q0 f inp out)).
  Lemma table_built nd q0 f inp out : has_table nd q0 f inp out -> lut_from_node (n_lut nd) = Ok (tab_act q0 f inp out).
  Proof. intros H. rewrite H. reflexivity. Qed.

  (** the engine's record, gate by gate *)
  Record engine_built (sq : bool) (eng : lstm) (G : nat -> gate) : Prop := {
    eb_build : lstm_build input (le_out e) (x_cell e) (x_act_in e) (x_act e) (gnode 0) (gnode 1) (gnode 2) (gnode 3) sq = Ok eng;
    eb_gates : forall g, (g < 4)%nat -> gate_built g (G g);
    eb_in : l_in eng = G 0%nat; eb_forget : l_forget eng = G 1%nat; eb_cellg : l_cell eng = G 2%nat; eb_out : l_out eng = G 3%nat;
    eb_lin : l_in_lut eng = tab_act (q_rec_add q) (gate_fn fn 0) (x_pre e 0) (x_gate e 0);
    eb_lforget : l_forget_lut eng = tab_act (q_rec_add q) (gate_fn fn 1) (x_pre e 1) (x_gate e 1);
    eb_lcell : l_cell_lut eng = tab_act (q_rec_add q) (gate_fn fn 2) (x_pre e 2) (x_gate e 2);
    eb_lout : l_out_lut eng = tab_act (q_rec_add q) (gate_fn fn 3) (x_pre e 3) (x_gate e 3);
    eb_lstate : l_state_lut eng = tab_act (q_cell q) (fn_tanh fn) (x_cell e) (x_act e);
    eb_izp : l_input_zp eng = zp0 input;
    eb_rdt : l_rec_dtype eng = q_rec_add q; eb_sdt : l_state_dtype eng = q_cell q; eb_hdt : l_hidden_dtype eng = q_hidden q;
    eb_cells : l_cells eng = n; eb_seq : l_seq eng = sq }.
  Lemma fia_small v : (0 < v)%Q -> (v <= inject_Z (2 ^ 28))%Q -> exists f, fia_init v = Ok f.
  Proof.
    intros P H. apply fia_ok_iff; [exact P|]. eapply Qle_lt_trans; [exact H|]. reflexivity.
  Qed.
  Lemma engine_builds sq : exists eng G, engine_built sq eng G.
  Proof.
    destruct (gate_builds 0 ltac:(lia)) as (G0 & B0), (gate_builds 1 ltac:(lia)) as (G1 & B1), (gate_builds 2 ltac:(lia)) as (G2 & B2), (gate_builds 3 ltac:(lia)) as (G3 & B3).
    pose proof (fun g Hg => ng_pos _ _ (proj1 (le_gate _ _ _ _ _ _ _ _ EX g Hg))) as PG.
    pose proof (ng_pos _ _ (proj1 (le_cell _ _ _ _ _ _ _ _ EX))) as PC. pose proof (ng_pos _ _ (proj1 (le_act _ _ _ _ _ _ _ _ EX))) as PA.
    pose proof (ng_pos _ _ (proj1 (le_hidden _ _ _ _ _ _ _ _ EX))) as PH.
    assert (DP : forall x y z : Q, (0 < x)%Q -> (0 < y)%Q -> (0 < z)%Q -> (0 < x * y / z)%Q).
    { intros x y z X Y Z. apply Qlt_shift_div_l; [exact Z|]. rewrite Qmult_0_l. apply Qmult_lt_0_compat; assumption. }
    destruct (fia_small _ (PG 1%nat ltac:(lia)) (lf_M3 _ _ _ FO)) as (f3 & F3).
    destruct (fia_small _ (DP _ _ _ (PG 0%nat ltac:(lia)) (PG 2%nat ltac:(lia)) PC) (lf_M4 _ _ _ FO)) as (f4 & F4).
    destruct (fia_small _ (DP _ _ _ (PG 3%nat ltac:(lia)) PA PH) (lf_M5 _ _ _ FO)) as (f5 & F5).
    pose proof (fun g Hg => table_built _ _ _ _ _ (le_table _ _ _ _ _ _ _ _ EX g Hg)) as TB.
    pose proof (table_built _ _ _ _ _ (le_act_table _ _ _ _ _ _ _ _ EX)) as TS.
    eexists _, (fun g => match g with 0%nat => G0 | 1%nat => G1 | 2%nat => G2 | _ => G3 end).
    constructor.
    - unfold lstm_build. cbv zeta. rewrite (gb_ok _ _ B0), (gb_ok _ _ B1), (gb_ok _ _ B2), (gb_ok _ _ B3). cbn [rbind].
      rewrite (py_div_nz _ _ PC), (py_div_nz _ _ PH). cbn [rbind].
      unfold gnode at 1 2 3 4. cbn [gn_in]. rewrite (TB 0%nat ltac:(lia)), (TB 1%nat ltac:(lia)), (TB 2%nat ltac:(lia)), (TB 3%nat ltac:(lia)), TS. cbn [rbind].
      unfold gnode at 1 2 3 4. cbn [gn_out]. rewrite F3, F4, F5. cbn [rbind]. reflexivity.
    - apply lt4; assumption.
    - reflexivity.
    - reflexivity.
    - reflexivity.
    - reflexivity.
    - reflexivity.
    - reflexivity.
    - reflexivity.
    - reflexivity.
    - reflexivity.
    - reflexivity.
    - cbn [l_rec_dtype]. apply (ng_dtype _ _ (proj1 (le_pre _ _ _ _ _ _ _ _ EX 0%nat ltac:(lia)))).
    - cbn [l_state_dtype]. apply (ng_dtype _ _ (proj1 (le_act _ _ _ _ _ _ _ _ EX))).
    - cbn [l_hidden_dtype]. apply (ng_dtype _ _ (proj1 (le_hidden _ _ _ _ _ _ _ _ EX))).
    - cbn [l_cells]. pose proof (gb_klen _ _ B0) as LK. pose proof (gb_krow _ _ B0) as RK. destruct (g_kernel G0) as [|r0 rs].
      + cbn in LK. pose proof (ls_feat _ _ _ _ Sh) as NE. destruct (kl_K l); [congruence|discriminate].
      + apply RK. now left.
    - reflexivity.
  Qed.

  (** ** pre-activations *)
  Lemma pre_close g G xq x hq (h : nat -> Q) eh ex X bb r :
    (g < 4)%nat -> gate_built g G -> length xq = nf -> length x = nf -> (forall v, In v xq -> in_dtype qi v) ->
    (forall k, (k < nf)%nat -> (Qabs (val input (nth k xq 0%Z) - nth k x 0) <= ex)%Q) -> (0 <= ex)%Q -> (abssum x <= X)%Q ->
    length hq = n -> (forall v, In v hq -> Z.abs v <= 2 ^ 16) -> (0 <= eh)%Q ->
    (forall k, (k < n)%nat -> (Qabs (n_scale (le_out e) * inject_Z (nth k hq 0%Z) - h k) <= eh)%Q) -> (forall k, (k < n)%nat -> (Qabs (h k) <= 1)%Q) ->
    bias_add_row n G (map (fun v => i64 (v - zp0 input)) xq) = Ok bb -> recurrent_row n (q_rec_add q) G hq bb = Ok r ->
    forall j, (j < n)%nat -> in_hull (calib (fun xs t j => pre_at fn l b xs t g j) n T data) (pre l b h x g j) ->
    (Qabs (val (x_pre e g) (nth j r 0%Z) - pre l b h x g j) <= b_pre l e X ex g eh)%Q.
  Proof.
    intros Hg GB Lxq Lx Dx Ex Ex0 HX Lh Dh Eh0 Eh Bh Eb Er j Hj HH.
    destruct GB as [Gok Gkl Gkr Gk Gul Gu Gb GM1].
    pose proof (le_kernel _ _ _ _ _ _ _ _ EX g Hg) as WK. pose proof (le_rec _ _ _ _ _ _ _ _ EX g Hg) as WU.
    destruct (le_pre _ _ _ _ _ _ _ _ EX g Hg) as [PG PF]. pose proof (le_hidden _ _ _ _ _ _ _ _ EX) as [HG _].
    destruct WK as [WKg WKd WK]. destruct WU as [WUg WUd WU].
    set (si := n_scale input) in *. set (sk := n_scale (x_kernel e g)) in *. set (su := n_scale (x_rec e g)) in *.
    set (sh := n_scale (le_out e)) in *. set (sr := n_scale (x_pre e g)) in *.
    assert (Psi : (0 < si)%Q) by apply (ng_pos _ _ IG). assert (Psk : (0 < sk)%Q) by apply (ng_pos _ _ WKg).
    assert (Psu : (0 < su)%Q) by apply (ng_pos _ _ WUg). assert (Psh : (0 < sh)%Q) by apply (ng_pos _ _ HG).
    assert (Psr : (0 < sr)%Q) by apply (ng_pos _ _ PG).
    destruct (ng_zp _ _ IG) as (zi & ZI1 & ZI2). assert (EZI : zp0 input = zi) by (unfold zp0; now rewrite ZI1).
    destruct (ng_zp _ _ WKg) as (zk & ZK1 & ZK2). assert (EZK : zp0 (x_kernel e g) = zk) by (unfold zp0; now rewrite ZK1).
    destruct (ng_zp _ _ WUg) as (zu & ZU1 & ZU2). assert (EZU : zp0 (x_rec e g) = zu) by (unfold zp0; now rewrite ZU1).
    destruct (ng_zp _ _ PG) as (zr & ZR1 & ZR2). assert (EZR : zp0 (x_pre e g) = zr) by (unfold zp0; now rewrite ZR1).
    pose proof (gl_k _ _ GD) as Sk. pose proof (gl_u _ _ GD) as Su. pose proof (gl_r _ _ GD) as Sr.
    assert (LU : length (kl_U l) = n) by apply (ls_Ul _ _ _ _ Sh).
    set (xc := map (fun v => i64 (v - zp0 input)) xq) in *.
    set (wk := map (fun k => code (x_kernel e g) k j) (seq 0 nf)). set (wu := map (fun k => code (x_rec e g) k j) (seq 0 n)).
    assert (Nwk : forall k, (k < nf)%nat -> nth k wk 0 = code (x_kernel e g) k j) by (intros k Hk; exact (nth_map0 (fun k => code (x_kernel e g) k j) nf k Hk)).
    assert (Nwu : forall k, (k < n)%nat -> nth k wu 0 = code (x_rec e g) k j) by (intros k Hk; exact (nth_map0 (fun k => code (x_rec e g) k j) n k Hk)).
    assert (Nxc : forall i, (i < nf)%nat -> nth i xc 0 = nth i xq 0 - zi).
    { intros i Hi. unfold xc. rewrite (nth_map_in _ _ i 0) by lia. rewrite EZI. apply i64_id.
      pose proof (short_diff qi _ _ IS (Dx (nth i xq 0) ltac:(apply nth_In; lia)) ZI2). lia. }
    assert (DK : dot_col j xc (g_kernel G) = sumZ_upto (length xq) (fun i => (nth i xq 0 - zi) * (nth i wk 0 - zk))).
    { apply dot_col_exact.
      - unfold xc. apply map_length.
      - unfold wk. rewrite map_length, seq_length. lia.
      - lia.
      - intros i Hi. apply Nxc. lia.
      - intros i Hi. rewrite Gk, Nwk by lia. rewrite EZK. reflexivity. }
    assert (DU : dot_col j hq (g_rec G) = sumZ_upto (length hq) (fun i => (nth i hq 0 - 0) * (nth i wu 0 - zu))).
    { apply dot_col_exact.
      - reflexivity.
      - unfold wu. rewrite map_length, seq_length. lia.
      - lia.
      - intros i Hi. lia.
      - intros i Hi. rewrite Gu, Nwu by lia. rewrite EZU. reflexivity. }
    assert (BK : Z.abs (dot_col j xc (g_kernel G)) <= Z.of_nat nf * 2 ^ 32).
    { rewrite DK, <- Lxq. apply sum_abs_bound. intros i Hi. rewrite Z.abs_mul. change (2 ^ 32) with (2 ^ 16 * 2 ^ 16).
      apply Z.mul_le_mono_nonneg; try apply Z.abs_nonneg.
      - apply (short_diff qi); [exact IS|apply Dx, nth_In; lia|exact ZI2].
      - rewrite Nwk by lia. apply (short_diff (q_kernel q)); [exact Sk| |exact ZK2]. apply WK; lia. }
    assert (BU : Z.abs (dot_col j hq (g_rec G)) <= Z.of_nat n * 2 ^ 32).
    { rewrite DU, <- Lh. apply sum_abs_bound. intros i Hi. rewrite Z.abs_mul, Z.sub_0_r. change (2 ^ 32) with (2 ^ 16 * 2 ^ 16).
      apply Z.mul_le_mono_nonneg; try apply Z.abs_nonneg.
      - apply Dh, nth_In. exact Hi.
      - rewrite Nwu by lia. apply (short_diff (q_rec q)); [exact Su| |exact ZU2]. apply WU; lia. }
    pose proof (lf_units _ _ _ FO) as FN. pose proof (lf_feat _ _ _ FO) as FF.
    pose proof (lf_bias _ _ _ FO g j Hg Hj) as FB. rewrite <- Gb in FB by exact Hj.
    pose proof (gl_b _ _ GD) as WB. unfold within_int32 in WB.
    set (bq := nth j (g_bias G) 0) in *.
    assert (P32 : 2 ^ 32 = 4294967296) by reflexivity. assert (P31 : 2 ^ 31 = 2147483648) by reflexivity.
    assert (P29 : 2 ^ 29 = 536870912) by reflexivity. assert (P62 : 2 ^ 62 = 4611686018427387904) by reflexivity.
    assert (BKA : Z.abs (dot_col j xc (g_kernel G) + bq) <= (Z.of_nat nf + 1) * 2 ^ 32) by lia.
    pose proof (C51_preactivation input (le_out e) (gnode g) G n (q_rec_add q) xc hq bb r Gok) as C.
    cbv zeta in C. unfold gnode in C. cbn [gn_kernel gn_rec gn_radd] in C. fold si sk su sh sr in C.
    assert (I64 : int64_dtype (q_rec_add q)).
    { unfold short in Sr. unfold int64_dtype. assert (2 ^ 16 = 65536) by reflexivity. assert (2 ^ 63 = 9223372036854775808) by reflexivity. lia. }
    specialize (C Psk Psi Psu Psh Psr I64 Eb Er j Hj). fold bq in C.
    assert (C1 : small_Z (dot_col j xc (g_kernel G))) by (unfold small_Z; lia).
    assert (C2 : small_Z bq) by (unfold small_Z; lia).
    assert (C3 : small_Z (dot_col j xc (g_kernel G) + bq)) by (unfold small_Z; lia).
    assert (C4 : small_Z (dot_col j hq (g_rec G) * 2)) by (unfold small_Z; lia).
    assert (C5 : small_Q (g_M1 G * inject_Z (dot_col j xc (g_kernel G) + bq) * 2)).
    { unfold small_Q. rewrite GM1. pose proof (lf_M1 _ _ _ FO g Hg) as M. rewrite (le_input _ _ _ _ _ _ _ _ EX) in M. fold si sk su sh in M. fold si sk su sh.
      set (M1 := (sk * si / (sh * su))%Q) in *.
      assert (PM : (0 < M1)%Q).
      { apply Qlt_shift_div_l; [nra|]. rewrite Qmult_0_l. nra. }
      rewrite !Qabs_Qmult. rewrite (Qabs_pos M1) by lra. change (Qabs 2) with 2%Q.
      assert (AB : (Qabs (inject_Z (dot_col j xc (g_kernel G) + bq)) <= inject_Z ((Z.of_nat nf + 1) * 2 ^ 32))%Q).
      { change (Qabs (inject_Z (dot_col j xc (g_kernel G) + bq))) with (inject_Z (Z.abs (dot_col j xc (g_kernel G) + bq))).
        apply (proj1 (Zle_inj _ _)). exact BKA. }
      rewrite inject_Z_mult in AB.
      assert (S1 : (M1 * Qabs (inject_Z (dot_col j xc (g_kernel G) + bq)) <= M1 * (inject_Z (Z.of_nat nf + 1) * inject_Z (2 ^ 32)))%Q)
        by (apply Qmult_le_l; assumption).
      assert (S2 : (M1 * (inject_Z (Z.of_nat nf + 1) * inject_Z (2 ^ 32)) <= inject_Z (2 ^ 29) * inject_Z (2 ^ 32))%Q).
      { rewrite Qmult_assoc. apply Qmult_le_compat_r; [exact M|discriminate]. }
      assert (S3 : (inject_Z (2 ^ 29) * inject_Z (2 ^ 32) * 2 == inject_Z (2 ^ 62))%Q) by reflexivity.
      rewrite <- S3. apply Qmult_le_compat_r; [|discriminate]. eapply Qle_trans; eassumption. }
    specialize (C C1 C2 C3 C4 C5). rewrite EZR in C.
    (* the exact accumulators against the float sums *)
    set (wkf := map (fun k => entry (kl_K l) n g k j) (seq 0 nf)). set (wuf := map (fun k => entry (kl_U l) n g k j) (seq 0 n)).
    assert (Nwkf : forall k, (k < nf)%nat -> nth k wkf 0%Q = entry (kl_K l) n g k j) by (intros k Hk; exact (nth_map_seq (fun k => entry (kl_K l) n g k j) nf k 0%Q Hk)).
    assert (Nwuf : forall k, (k < n)%nat -> nth k wuf 0%Q = entry (kl_U l) n g k j) by (intros k Hk; exact (nth_map_seq (fun k => entry (kl_U l) n g k j) n k 0%Q Hk)).
    set (hf := map h (seq 0 n)).
    assert (Nhf : forall k, (k < n)%nat -> nth k hf 0%Q = h k) by (intros k Hk; exact (nth_map_seq h n k 0%Q Hk)).
    assert (Lhf : length hf = n) by (unfold hf; now rewrite map_length, seq_length).
    set (bj := nth (g * n + j) b 0%Q).
    assert (BE : (Qabs (si * sk * inject_Z bq - bj) <= si * sk * (1#2))%Q).
    { assert (Ebq : bq = quant1 (q_bias q) 0 (si * sk) bj).
      { unfold bq. rewrite Gb by exact Hj. rewrite (le_bias _ _ _ _ _ _ _ _ EX g Hg).
        unfold code, gate_bias, tensor_node. cbn [n_tensor map nth].
        rewrite (nth_map_in _ _ j 0%Q) by (rewrite part_length; [exact Hj|apply (ls_blen _ _ _ _ Sh)|exact Hg]).
        f_equal. apply part_nth, Hj. }
      rewrite Ebq. apply quant_bias_err; [exact WB|nra|]. rewrite <- Ebq. exact FB. }
    pose proof (acc_close si zi sk zk xq wk bq x wkf bj ex (sk * (1#2)) (si * sk * (1#2)) Ex0 ltac:(lra) ltac:(lia)) as AK.
    specialize (AK ltac:(intros i Hi; rewrite <- EZI; apply Ex; lia)).
    specialize (AK ltac:(intros i Hi; rewrite Nwk, Nwkf by lia; rewrite <- EZK; apply WK; lia) BE).
    pose proof (acc_close sh 0 su zu hq wu 0 hf wuf 0 eh (su * (1#2)) 0 Eh0 ltac:(lra) ltac:(lia)) as AU.
    specialize (AU ltac:(intros i Hi; rewrite Z.sub_0_r, Nhf by lia; apply Eh; lia)).
    specialize (AU ltac:(intros i Hi; rewrite Nwu, Nwuf by lia; rewrite <- EZU; apply WU; lia)).
    specialize (AU ltac:(setoid_replace (sh * su * inject_Z 0 - 0)%Q with 0%Q by ring; discriminate)).
    unfold exact_acc in AK, AU. rewrite <- DK in AK. rewrite <- DU, Z.add_0_r in AU.
    set (kacc := dot_col j xc (g_kernel G) + bq) in *. set (racc := dot_col j hq (g_rec G)) in *.
    assert (SK : (sumQ_upto (length x) (fun i => ex * Qabs (nth i wkf 0) + sk * (1#2) * Qabs (nth i x 0) + ex * (sk * (1#2))) <=
                  ex * colsum (kl_K l) n g + sk * (1#2) * X + nq nf * (ex * (sk * (1#2))))%Q).
    { rewrite Lx. apply lin_bound; [exact Ex0|lra| |].
      - rewrite (sumQ_upto_ext nf _ (fun k => Qabs (entry (kl_K l) n g k j))) by (intros k Hk; now rewrite Nwkf). apply colsum_ge, Hj.
      - rewrite <- (abssum_upto x nf Lx). exact HX. }
    assert (SU : (sumQ_upto (length hf) (fun i => eh * Qabs (nth i wuf 0) + su * (1#2) * Qabs (nth i hf 0) + eh * (su * (1#2))) <=
                  eh * colsum (kl_U l) n g + su * (1#2) * nq n + nq n * (eh * (su * (1#2))))%Q).
    { rewrite Lhf. apply lin_bound; [exact Eh0|lra| |].
      - rewrite (sumQ_upto_ext n _ (fun k => Qabs (entry (kl_U l) n g k j))) by (intros k Hk; now rewrite Nwuf).
        pose proof (colsum_ge (kl_U l) n g j Hj) as CG. rewrite LU in CG. exact CG.
      - eapply Qle_trans; [apply (sumQ_upto_le n _ (fun _ => 1%Q)); intros k Hk; cbv beta; rewrite Nhf by exact Hk; apply Bh, Hk|].
        rewrite sumQ_upto_const. unfold nq. lra. }
    assert (PE : (pre l b h x g j == dense x wkf bj + dense hf wuf 0)%Q).
    { unfold pre, dense. rewrite Lx, Lhf. fold bj.
      rewrite (sumQ_upto_ext n (fun i => nth i hf 0 * nth i wuf 0)%Q (fun k => h k * entry (kl_U l) n g k j)%Q) by (intros k Hk; now rewrite Nhf, Nwuf).
      rewrite (sumQ_upto_ext nf (fun i => nth i x 0 * nth i wkf 0)%Q (fun k => nth k x 0 * entry (kl_K l) n g k j)%Q) by (intros k Hk; now rewrite Nwkf).
      ring. }
    set (p := pre l b h x g j) in *.
    (* assemble *)
    specialize (PF p HH). rewrite (ng_dtype _ _ PG) in PF. fold sr in PF. rewrite EZR in PF.
    set (rp := real_pre sk si su sh sr zr kacc racc) in *.
    assert (RP : (Qabs (rp - real_code p sr zr) <= (Qabs (si * sk * inject_Z kacc - dense x wkf bj) + Qabs (sh * su * inject_Z racc - dense hf wuf 0)) / sr)%Q).
    { unfold rp, real_pre, real_code.
      setoid_replace ((sk * si * inject_Z kacc + su * sh * inject_Z racc) / sr + inject_Z zr - (p / sr + inject_Z zr))%Q
        with (((si * sk * inject_Z kacc - dense x wkf bj) + (sh * su * inject_Z racc - dense hf wuf 0)) * / sr)%Q
        by (rewrite PE; field; lra).
      rewrite Qabs_Qmult. rewrite (Qabs_pos (/ sr)) by (apply Qlt_le_weak, Qinv_lt_0_compat, Psr).
      apply Qmult_le_compat_r; [apply Qabs_triangle|apply Qlt_le_weak, Qinv_lt_0_compat, Psr]. }
    pose proof (clampQ_near (gmin (q_rec_add q)) (gmax (q_rec_add q)) rp (real_code p sr zr) (1#2) ltac:(unfold short in Sr; lia) ltac:(discriminate) PF) as CN.
    unfold val. fold sr. rewrite EZR. apply scale_dist; [exact Psr|].
    set (A := Qabs (si * sk * inject_Z kacc - dense x wkf bj)) in *. set (B := Qabs (sh * su * inject_Z racc - dense hf wuf 0)) in *.
    assert (BD : ((A + B) / sr <= (ex * colsum (kl_K l) n g + sk * (1#2) * X + nq nf * (ex * (sk * (1#2))) + si * sk * (1#2)
       + (eh * colsum (kl_U l) n g + su * (1#2) * nq n + nq n * (eh * (su * (1#2))))) / sr)%Q).
    { apply Qmult_le_compat_r; [lra|apply Qlt_le_weak, Qinv_lt_0_compat, Psr]. }
    assert (EB' : (b_pre l e X ex g eh / sr == (ex * colsum (kl_K l) n g + sk * (1#2) * X + nq nf * (ex * (sk * (1#2))) + si * sk * (1#2)
       + (eh * colsum (kl_U l) n g + su * (1#2) * nq n + nq n * (eh * (su * (1#2))))) / sr + su * sh / sr + (3#2))%Q).
    { unfold b_pre. rewrite (le_input _ _ _ _ _ _ _ _ EX). fold si sk su sh sr. field. lra. }
    rewrite EB'.
    set (big := ((ex * colsum (kl_K l) n g + sk * (1#2) * X + nq nf * (ex * (sk * (1#2))) + si * sk * (1#2)
       + (eh * colsum (kl_U l) n g + su * (1#2) * nq n + nq n * (eh * (su * (1#2))))) / sr)%Q) in *.
    set (cl := clampQ (gmin (q_rec_add q)) (gmax (q_rec_add q)) rp) in *.
    setoid_replace (inject_Z (nth j r 0%Z) - real_code p sr zr)%Q with ((inject_Z (nth j r 0%Z) - cl) + (cl - real_code p sr zr))%Q by ring.
    eapply Qle_trans; [apply Qabs_triangle|]. lra.
  Qed.

  (** ** one step *)
  Variables (Ls Ds Lt Dt X ex : Q).
  Hypothesis LipS : bounded_lip (fn_sig fn) Ls Ds.
  Hypothesis LipT : bounded_lip (fn_tanh fn) Lt Dt.
  Hypothesis Ex0 : (0 <= ex)%Q.
  Notation bgate := (b_gate l e Ls Ds Lt Dt X ex).
  Notation bcell := (b_cell l (q_cell q) e Ls Ds Lt Dt X ex).
  Notation bhidden := (b_hidden l (q_cell q) e Ls Ds Lt Dt X ex).
  Lemma gate_lip g : bounded_lip (gate_fn fn g) (if (g =? 2)%nat then Lt else Ls) (if (g =? 2)%nat then Dt else Ds).
  Proof. unfold gate_fn. destruct (g =? 2)%nat; assumption. Qed.
  Definition xrow_ok (xq : list Z) (x : list Q) : Prop :=
    length xq = nf /\ length x = nf /\ (forall v, In v xq -> in_dtype qi v) /\
    (forall k, (k < nf)%nat -> (Qabs (val input (nth k xq 0%Z) - nth k x 0) <= ex)%Q) /\ (abssum x <= X)%Q.
  Definition hrow_ok (hq : list Z) (h : nat -> Q) (eh : Q) : Prop :=
    length hq = n /\ (forall v, In v hq -> Z.abs v <= 2 ^ 16) /\ (0 <= eh)%Q /\
    (forall k, (k < n)%nat -> (Qabs (n_scale (le_out e) * inject_Z (nth k hq 0%Z) - h k) <= eh)%Q) /\ (forall k, (k < n)%nat -> (Qabs (h k) <= 1)%Q).
  Definition crow_ok (cq : list Z) (c : nat -> Q) (ec : Q) : Prop :=
    length cq = n /\ (forall v, In v cq -> in_dtype (q_cell q) v) /\ (0 <= ec)%Q /\
    (forall k, (k < n)%nat -> (Qabs (val (x_cell e) (nth k cq 0%Z) - c k) <= ec)%Q) /\
    (forall k, (k < n)%nat -> (Qabs (c k) <= n_scale (x_cell e) * inject_Z (gmax (q_cell q)))%Q).
  Lemma gate_close_all g G xq x hq h eh bb r a : (g < 4)%nat -> gate_built g G -> xrow_ok xq x -> hrow_ok hq h eh ->
    bias_add_row n G (map (fun v => i64 (v - zp0 input)) xq) = Ok bb -> recurrent_row n (q_rec_add q) G hq bb = Ok r ->
    lut_row (tab_act (q_rec_add q) (gate_fn fn g) (x_pre e g) (x_gate e g)) r = Ok a ->
    (forall j, (j < n)%nat -> in_hull (calib (fun xs t j => pre_at fn l b xs t g j) n T data) (pre l b h x g j)) ->
    (forall j, (j < n)%nat -> in_hull (gate_calib fn l b T data g) (gate_fn fn g (pre l b h x g j))) ->
    forall j, (j < n)%nat ->
      (in_dtype (q_rec_add q) (nth j r 0) /\ (Qabs (val (x_pre e g) (nth j r 0%Z) - pre l b h x g j) <= b_pre l e X ex g eh)%Q) /\
      in_dtype (q_rec_add q) (nth j a 0) /\
      (Qabs (val (x_gate e g) (nth j a 0%Z) - gate_fn fn g (pre l b h x g j)) <= bgate g eh)%Q.
  Proof.
    intros Hg GB (X1 & X2 & X3 & X4 & X5) (H1 & H2 & H3 & H4 & H5) Eb Er Ea HP HA j Hj.
    pose proof (gl_r _ _ GD) as Sr. pose proof (short_narrow _ Sr) as Nr.
    assert (I64 : int64_dtype (q_rec_add q)).
    { unfold short in Sr. unfold int64_dtype. assert (2 ^ 16 = 65536) by reflexivity. assert (2 ^ 63 = 9223372036854775808) by reflexivity. lia. }
    destruct (recurrent_row_in _ _ _ _ _ _ I64 Er) as [Ir Lr].
    destruct (le_pre _ _ _ _ _ _ _ _ EX g Hg) as [PG _]. destruct (le_gate _ _ _ _ _ _ _ _ EX g Hg) as [GG GF]. rewrite (gl_act _ _ GD) in GG.
    pose proof (le_table _ _ _ _ _ _ _ _ EX g Hg) as HT.
    pose proof (table_row _ _ _ _ _ _ r HT (table_built _ _ _ _ _ HT) Nr (ng_zp _ _ PG) Ir) as ET.
    rewrite ET in Ea. assert (Ea' : a = map (tab1 (q_rec_add q) (gate_fn fn g) (x_pre e g) (x_gate e g)) r) by congruence. rewrite Ea'.
    rewrite (nth_map_in _ r j 0) by lia.
    pose proof (pre_close g G xq x hq h eh ex X bb r Hg GB X1 X2 X3 X4 Ex0 X5 H1 H2 H3 H4 H5 Eb Er j Hj (HP j Hj)) as PC.
    pose proof (tab1_close (q_rec_add q) (gate_fn fn g) (x_pre e g) (x_gate e g) (nth j r 0) _ _ _ _ _ Nr GG GF (HA j Hj) (gate_lip g)
      ltac:(eapply Qle_trans; [apply Qabs_nonneg|exact PC]) PC) as [A B].
    split; [split; [apply Ir, nth_In; lia|exact PC]|]. split; [exact A|]. unfold b_gate. destruct (g =? 2)%nat; exact B.
  Qed.
  Lemma gate_close g G xq x hq h eh bb r a : (g < 4)%nat -> gate_built g G -> xrow_ok xq x -> hrow_ok hq h eh ->
    bias_add_row n G (map (fun v => i64 (v - zp0 input)) xq) = Ok bb -> recurrent_row n (q_rec_add q) G hq bb = Ok r ->
    lut_row (tab_act (q_rec_add q) (gate_fn fn g) (x_pre e g) (x_gate e g)) r = Ok a ->
    (forall j, (j < n)%nat -> in_hull (calib (fun xs t j => pre_at fn l b xs t g j) n T data) (pre l b h x g j)) ->
    (forall j, (j < n)%nat -> in_hull (gate_calib fn l b T data g) (gate_fn fn g (pre l b h x g j))) ->
    forall j, (j < n)%nat -> in_dtype (q_rec_add q) (nth j a 0) /\
      (Qabs (val (x_gate e g) (nth j a 0%Z) - gate_fn fn g (pre l b h x g j)) <= bgate g eh)%Q.
  Proof. intros Hg GB HX HH Eb Er Ea HP HA j Hj. exact (proj2 (gate_close_all g G xq x hq h eh bb r a Hg GB HX HH Eb Er Ea HP HA j Hj)). Qed.
  Lemma fn_bounded g p : (Qabs (gate_fn fn g p) <= 1)%Q.
  Proof. destruct (gate_lip g) as (_ & _ & B & _). apply B. Qed.

  Lemma val_abs nd q0 c : short q0 -> node_good nd q0 -> in_dtype q0 c -> (Qabs (inject_Z (c - zp0 nd)) <= inject_Z (2 ^ 16))%Q.
  Proof.
    intros Hs [_ _ (z & Z1 & Z2)] Hc. change (Qabs (inject_Z (c - zp0 nd))) with (inject_Z (Z.abs (c - zp0 nd))). apply (proj1 (Zle_inj _ _)).
    unfold zp0. rewrite Z1. eapply short_diff; eassumption.
  Qed.
  Lemma mult_small M a c : (0 < M)%Q -> (M <= inject_Z (2 ^ 28))%Q -> (Qabs a <= inject_Z (2 ^ 16))%Q -> (Qabs c <= inject_Z (2 ^ 16))%Q ->
    (Qabs (M * (a * c)) <= inject_Z (2 ^ 60))%Q.
  Proof.
    intros P HM Ha Hc. rewrite !Qabs_Qmult, (Qabs_pos M) by lra.
    assert (S1 : (Qabs a * Qabs c <= inject_Z (2 ^ 16) * inject_Z (2 ^ 16))%Q).
    { apply Qle_trans with (inject_Z (2 ^ 16) * Qabs c)%Q; [apply Qmult_le_compat_r; [exact Ha|apply Qabs_nonneg]|].
      apply Qmult_le_l; [reflexivity|exact Hc]. }
    apply Qle_trans with (M * (inject_Z (2 ^ 16) * inject_Z (2 ^ 16)))%Q; [apply Qmult_le_l; assumption|].
    apply Qle_trans with (inject_Z (2 ^ 28) * (inject_Z (2 ^ 16) * inject_Z (2 ^ 16)))%Q; [apply Qmult_le_compat_r; [exact HM|discriminate]|]. discriminate.
  Qed.
  (** the values one step records before its cell and hidden states *)
  Definition inner_close (rec : step_rec) (s : lstate) (x : list Q) (eh ec : Q) : Prop :=
    let s' := lnext fn l b s x in
    (forall g j, (g < 4)%nat -> (j < n)%nat ->
      (in_dtype (q_rec_add q) (nth j (nth g (s_pre rec) []) 0) /\
       (Qabs (val (x_pre e g) (nth j (nth g (s_pre rec) []) 0%Z) - pre l b (st_h s) x g j) <= b_pre l e X ex g eh)%Q) /\
      in_dtype (q_rec_add q) (nth j (nth g (s_gates rec) []) 0) /\
      (Qabs (val (x_gate e g) (nth j (nth g (s_gates rec) []) 0%Z) - gate_fn fn g (pre l b (st_h s) x g j)) <= bgate g eh)%Q) /\
    (forall j, (j < n)%nat -> in_dtype (q_cell q) (nth j (s_act rec) 0) /\
      (Qabs (val (x_act e) (nth j (s_act rec) 0%Z) - fn_tanh fn (st_c s' j)) <= Lt * bcell eh ec + Dt + n_scale (x_act e) * (1#2))%Q).
  Lemma step_close sq eng G hq cq s eh ec xq x rec : engine_built sq eng G -> xrow_ok xq x -> hrow_ok hq (st_h s) eh -> crow_ok cq (st_c s) ec ->
    step_row eng hq cq (map (fun v => i64 (v - zp0 input)) xq) = Ok rec ->
    let s' := lnext fn l b s x in
    (forall g j, (g < 4)%nat -> (j < n)%nat -> in_hull (calib (fun xs t j => pre_at fn l b xs t g j) n T data) (pre l b (st_h s) x g j)) ->
    (forall g j, (g < 4)%nat -> (j < n)%nat -> in_hull (gate_calib fn l b T data g) (gate_fn fn g (pre l b (st_h s) x g j))) ->
    (forall j, (j < n)%nat -> in_hull (calib (cell_at fn l b) n T data) (st_c s' j)) ->
    (forall j, (j < n)%nat -> in_hull (calib (act_at fn l b) n T data) (fn_tanh fn (st_c s' j))) ->
    (forall j, (j < n)%nat -> in_hull (calib (hidden_at fn l b) n T data) (st_h s' j)) ->
    crow_ok (s_cell rec) (st_c s') (bcell eh ec) /\ length (s_hidden rec) = n /\ (forall v, In v (s_hidden rec) -> in_dtype (q_hidden q) v) /\
    (forall j, (j < n)%nat -> (Qabs (val (le_out e) (nth j (s_hidden rec) 0%Z) - st_h s' j) <= bhidden eh ec)%Q) /\
    (forall j, (j < n)%nat -> (Qabs (st_h s' j) <= 1)%Q) /\ inner_close rec s x eh ec.
  Proof.
    intros EB XR HR CR ST s' HP HA HC HT HH.
    destruct EB as [Bld BG Bi Bf Bc Bo Li Lf Lc Lo Lst Izp Rdt Sdt Hdt Cls Sq].
    pose proof (ls_units _ _ _ _ Sh) as Hn.
    unfold step_row in ST. cbv zeta in ST. rewrite Cls, Rdt, Bi, Bf, Bc, Bo, Li, Lf, Lc, Lo, Lst in ST.
    set (xc := map (fun v => i64 (v - zp0 input)) xq) in *.
    destruct (bias_add_row n (G 0%nat) xc) as [bi|] eqn:B0; [|discriminate]. cbn [rbind] in ST.
    destruct (bias_add_row n (G 1%nat) xc) as [bf|] eqn:B1; [|discriminate]. cbn [rbind] in ST.
    destruct (bias_add_row n (G 2%nat) xc) as [bc|] eqn:B2; [|discriminate]. cbn [rbind] in ST.
    destruct (bias_add_row n (G 3%nat) xc) as [bo|] eqn:B3; [|discriminate]. cbn [rbind] in ST.
    destruct (recurrent_row n (q_rec_add q) (G 0%nat) hq bi) as [ri|] eqn:R0; [|discriminate]. cbn [rbind] in ST.
    destruct (recurrent_row n (q_rec_add q) (G 1%nat) hq bf) as [rf|] eqn:R1; [|discriminate]. cbn [rbind] in ST.
    destruct (recurrent_row n (q_rec_add q) (G 2%nat) hq bc) as [rc|] eqn:R2; [|discriminate]. cbn [rbind] in ST.
    destruct (recurrent_row n (q_rec_add q) (G 3%nat) hq bo) as [ro|] eqn:R3; [|discriminate]. cbn [rbind] in ST.
    match type of ST with rbind ?m _ = _ => destruct m as [ai|] eqn:A0; [|discriminate] end. cbn [rbind] in ST.
    match type of ST with rbind ?m _ = _ => destruct m as [af|] eqn:A1; [|discriminate] end. cbn [rbind] in ST.
    match type of ST with rbind ?m _ = _ => destruct m as [ac|] eqn:A2; [|discriminate] end. cbn [rbind] in ST.
    match type of ST with rbind ?m _ = _ => destruct m as [ao|] eqn:A3; [|discriminate] end. cbn [rbind] in ST.
    set (c' := map (fun j => cell1 eng (nth j af 0) (nth j cq 0) (nth j ai 0) (nth j ac 0)) (seq 0 n)) in *.
    match type of ST with rbind ?m _ = _ => destruct m as [aa|] eqn:A4; [|discriminate] end. cbn [rbind] in ST.
    match type of ST with Ok ?t = _ => assert (E : rec = t) by congruence end. subst rec. clear ST. unfold inner_close. cbv zeta. cbn [s_cell s_hidden s_act s_pre s_gates].
    assert (L0 : (0 < 4)%nat) by lia. assert (L1 : (1 < 4)%nat) by lia. assert (L2 : (2 < 4)%nat) by lia. assert (L3 : (3 < 4)%nat) by lia.
    pose proof (gate_close_all 0 _ _ _ _ _ _ _ _ _ L0 (BG 0%nat L0) XR HR B0 R0 A0 (fun j => HP 0%nat j L0) (fun j => HA 0%nat j L0)) as D0. pose proof (fun j Hj => proj2 (D0 j Hj)) as C0.
    pose proof (gate_close_all 1 _ _ _ _ _ _ _ _ _ L1 (BG 1%nat L1) XR HR B1 R1 A1 (fun j => HP 1%nat j L1) (fun j => HA 1%nat j L1)) as D1. pose proof (fun j Hj => proj2 (D1 j Hj)) as C1.
    pose proof (gate_close_all 2 _ _ _ _ _ _ _ _ _ L2 (BG 2%nat L2) XR HR B2 R2 A2 (fun j => HP 2%nat j L2) (fun j => HA 2%nat j L2)) as D2. pose proof (fun j Hj => proj2 (D2 j Hj)) as C2.
    pose proof (gate_close_all 3 _ _ _ _ _ _ _ _ _ L3 (BG 3%nat L3) XR HR B3 R3 A3 (fun j => HP 3%nat j L3) (fun j => HA 3%nat j L3)) as D3. pose proof (fun j Hj => proj2 (D3 j Hj)) as C3.
    assert (NN : forall u v : Q, (Qabs u <= v)%Q -> (0 <= v)%Q) by (intros u v Huv; eapply Qle_trans; [apply Qabs_nonneg|exact Huv]).
    pose proof (NN _ _ (proj2 (C0 0%nat Hn))) as N0. pose proof (NN _ _ (proj2 (C1 0%nat Hn))) as N1.
    pose proof (NN _ _ (proj2 (C2 0%nat Hn))) as N2. pose proof (NN _ _ (proj2 (C3 0%nat Hn))) as N3.
    pose proof (gl_r _ _ GD) as Sr. pose proof (gl_c _ _ GD) as Sc. pose proof (gl_h _ _ GD) as SH.
    destruct (le_cell _ _ _ _ _ _ _ _ EX) as [CG CZ]. pose proof (ng_pos _ _ CG) as PC. set (sc := n_scale (x_cell e)) in *.
    assert (ZC : zp0 (x_cell e) = 0) by (unfold zp0; now rewrite CZ).
    pose proof (fun g Hg => proj1 (le_gate _ _ _ _ _ _ _ _ EX g Hg)) as GG.
    destruct (le_act _ _ _ _ _ _ _ _ EX) as [AG AF]. destruct (le_hidden _ _ _ _ _ _ _ _ EX) as [HG HF].
    destruct CR as (CR1 & CR2 & CR3 & CR4 & CR5).
    set (gt := fun g j => gate_fn fn g (pre l b (st_h s) x g j)).
    set (vcb := (sc * inject_Z (gmax (q_cell q)))%Q) in *.
    assert (VC0 : (0 <= vcb)%Q) by (apply (NN _ _ (CR5 0%nat Hn))).
    (* the new cell state *)
    assert (CELL : forall j, (j < n)%nat -> in_dtype (q_cell q) (nth j c' 0) /\ (Qabs (val (x_cell e) (nth j c' 0%Z) - st_c s' j) <= bcell eh ec)%Q).
    { intros j Hj. unfold c'. rewrite (nth_map0 (fun j => cell1 eng (nth j af 0) (nth j cq 0) (nth j ai 0) (nth j ac 0)) n j Hj).
      split; [unfold cell1; rewrite Sdt; apply clipZ_range; unfold short in Sc; lia|].
      destruct (C0 j Hj) as [I0 E0], (C1 j Hj) as [I1 E1], (C2 j Hj) as [I2 E2].
      assert (Ic : in_dtype (q_cell q) (nth j cq 0)) by (apply CR2, nth_In; lia).
      pose proof (C51_cell_state _ _ _ _ _ _ _ _ _ _ _ (nth j af 0) (nth j cq 0) (nth j ai 0) (nth j ac 0) Bld PC) as CS.
      rewrite (ng_dtype _ _ AG) in CS. specialize (CS ltac:(unfold short in Sc; lia)). cbv zeta in CS.
      cbn [gnode gn_out] in CS. fold (val (x_gate e 1) (nth j af 0)) (val (x_cell e) (nth j cq 0)) (val (x_gate e 0) (nth j ai 0)) (val (x_gate e 2) (nth j ac 0)) in CS.
      fold sc in CS. rewrite ZC in CS.
      set (vf := val (x_gate e 1) (nth j af 0)) in *. set (vc := val (x_cell e) (nth j cq 0)) in *. set (vi := val (x_gate e 0) (nth j ai 0)) in *. set (vg := val (x_gate e 2) (nth j ac 0)) in *.
      set (cd := ((vf * vc + vi * vg) / sc + inject_Z 0)%Q) in *.
      assert (SM : small_Q cd).
      { assert (G1 : node_good (x_gate e 1) (q_rec_add q)) by (rewrite <- (gl_act _ _ GD); apply GG; lia).
        assert (G0 : node_good (x_gate e 0) (q_rec_add q)) by (rewrite <- (gl_act _ _ GD); apply GG; lia).
        assert (G2 : node_good (x_gate e 2) (q_rec_add q)) by (rewrite <- (gl_act _ _ GD); apply GG; lia).
        pose proof (mult_small _ _ _ (ng_pos _ _ G1) (lf_M3 _ _ _ FO) (val_abs _ _ _ Sr G1 I1) (val_abs _ _ _ Sc CG Ic)) as S1.
        assert (PM4 : (0 < n_scale (x_gate e 0) * n_scale (x_gate e 2) / sc)%Q).
        { apply Qlt_shift_div_l; [exact PC|]. rewrite Qmult_0_l. apply Qmult_lt_0_compat; [apply (ng_pos _ _ G0)|apply (ng_pos _ _ G2)]. }
        pose proof (mult_small _ _ _ PM4 (lf_M4 _ _ _ FO) (val_abs _ _ _ Sr G0 I0) (val_abs _ _ _ Sr G2 I2)) as S2.
        unfold small_Q.
        setoid_replace cd with (n_scale (x_gate e 1) * (inject_Z (nth j af 0%Z - zp0 (x_gate e 1)) * inject_Z (nth j cq 0%Z - zp0 (x_cell e)))
           + n_scale (x_gate e 0) * n_scale (x_gate e 2) / sc * (inject_Z (nth j ai 0%Z - zp0 (x_gate e 0)) * inject_Z (nth j ac 0%Z - zp0 (x_gate e 2))))%Q.
        - eapply Qle_trans; [apply Qabs_triangle|].
          eapply Qle_trans; [apply Qplus_le_compat; [exact S1|exact S2]|]. discriminate.
        - unfold cd, vf, vc, vi, vg, val. fold sc. change (inject_Z 0) with 0%Q. field. lra. }
      specialize (CS SM).
      pose proof (prod_close (gt 1%nat j) (st_c s j) vf vc _ _ vcb N1 E1 (CR4 j Hj) (fn_bounded 1 _) (CR5 j Hj)) as P1.
      pose proof (prod_close (gt 0%nat j) (gt 2%nat j) vi vg _ _ 1 N0 E0 E2 (fn_bounded 0 _) (fn_bounded 2 _)) as P2.
      assert (RC : (Qabs (cd - real_code (st_c s' j) sc 0) <= (((1 + bgate 1%nat eh) * ec + vcb * bgate 1%nat eh) + ((1 + bgate 0%nat eh) * bgate 2%nat eh + 1 * bgate 0%nat eh)) / sc)%Q).
      { change (st_c s' j) with (gt 1%nat j * st_c s j + gt 0%nat j * gt 2%nat j)%Q. unfold cd, real_code.
        setoid_replace ((vf * vc + vi * vg) / sc + inject_Z 0 - ((gt 1%nat j * st_c s j + gt 0%nat j * gt 2%nat j) / sc + inject_Z 0))%Q
          with (((vf * vc - gt 1%nat j * st_c s j) + (vi * vg - gt 0%nat j * gt 2%nat j)) * / sc)%Q by (field; lra).
        rewrite Qabs_Qmult, (Qabs_pos (/ sc)) by (apply Qlt_le_weak, Qinv_lt_0_compat, PC).
        apply Qmult_le_compat_r; [|apply Qlt_le_weak, Qinv_lt_0_compat, PC].
        eapply Qle_trans; [apply Qabs_triangle|]. apply Qplus_le_compat; assumption. }
      pose proof (le_cell_fit _ _ _ _ _ _ _ _ EX _ (HC j Hj)) as FIT. fold sc in FIT.
      assert (MQ : (inject_Z (gmin (q_cell q)) <= - inject_Z (gmax (q_cell q)))%Q).
      { rewrite <- inject_Z_opp. apply (proj1 (Zle_inj _ _)). apply (gl_csym _ _ GD). }
      pose proof (clampQ_near (gmin (q_cell q)) (gmax (q_cell q)) cd (real_code (st_c s' j) sc 0) 0 ltac:(unfold short in Sc; lia) ltac:(discriminate)
        ltac:(unfold real_code; change (inject_Z 0) with 0%Q; split; lra)) as CN.
      unfold val. fold sc. rewrite ZC. apply scale_dist; [exact PC|].
      set (v := cell1 eng (nth j af 0) (nth j cq 0) (nth j ai 0) (nth j ac 0)) in *. set (cl := clampQ (gmin (q_cell q)) (gmax (q_cell q)) cd) in *.
      assert (EE : (bcell eh ec / sc == (((1 + bgate 1%nat eh) * ec + vcb * bgate 1%nat eh) + ((1 + bgate 0%nat eh) * bgate 2%nat eh + 1 * bgate 0%nat eh)) / sc + 1)%Q).
      { unfold b_cell. fold sc. unfold vcb. field. lra. }
      rewrite EE. setoid_replace (inject_Z v - real_code (st_c s' j) sc 0)%Q with ((inject_Z v - cl) + (cl - real_code (st_c s' j) sc 0))%Q by ring.
      eapply Qle_trans; [apply Qabs_triangle|]. lra. }
    assert (Lc' : length c' = n) by (unfold c'; now rewrite map_length, seq_length).
    assert (Ic' : forall v, In v c' -> in_dtype (q_cell q) v).
    { intros v Hv. apply In_nth with (d := 0) in Hv as (j & Hj & <-). apply CELL. lia. }
    assert (BC0 : (0 <= bcell eh ec)%Q) by (apply (NN _ _ (proj2 (CELL 0%nat Hn)))).
    (* its activation *)
    pose proof (le_act_table _ _ _ _ _ _ _ _ EX) as HTT.
    rewrite (table_row _ _ _ _ _ _ c' HTT (table_built _ _ _ _ _ HTT) (short_narrow _ Sc) (ng_zp _ _ CG) Ic') in A4.
    assert (EA : aa = map (tab1 (q_cell q) (fn_tanh fn) (x_cell e) (x_act e)) c') by congruence.
    set (ea := (Lt * bcell eh ec + Dt + n_scale (x_act e) * (1 # 2))%Q).
    assert (ACT : forall j, (j < n)%nat -> in_dtype (q_cell q) (nth j aa 0) /\ (Qabs (val (x_act e) (nth j aa 0%Z) - fn_tanh fn (st_c s' j)) <= ea)%Q).
    { intros j Hj. rewrite EA, (nth_map_in _ c' j 0) by lia. 
      apply (tab1_close _ _ _ _ _ _ _ _ _ _ (short_narrow _ Sc) AG AF (HT j Hj) LipT BC0). apply CELL, Hj. }
    split; [|split; [now rewrite map_length, seq_length|split; [|split; [|split; [|split]]]]].
    - split; [exact Lc'|]. split; [exact Ic'|]. split; [exact BC0|]. split; [intros k Hk; apply CELL, Hk|].
      intros k Hk. pose proof (le_cell_fit _ _ _ _ _ _ _ _ EX _ (HC k Hk)) as [F1 F2]. fold sc in F1, F2. fold sc.
      apply Qabs_Qle_condition.
      assert (X1 : (st_c s' k == sc * (st_c s' k / sc))%Q) by (field; lra).
      rewrite X1. split.
      + setoid_replace (- (sc * inject_Z (gmax (q_cell q))))%Q with (sc * (- inject_Z (gmax (q_cell q))))%Q by ring. apply Qmult_le_l; assumption.
      + apply Qmult_le_l; assumption.
    - intros v Hv. apply in_map_iff in Hv as (j & <- & _). unfold hidden1. rewrite Hdt. apply clipZ_range. unfold short in SH. lia.
    - intros j Hj. rewrite (nth_map0 (fun j => hidden1 eng (nth j ao 0) (nth j aa 0)) n j Hj).
      destruct (C3 j Hj) as [I3 E3]. destruct (ACT j Hj) as [Ia Ea].
      pose proof (ng_pos _ _ HG) as PH. set (sh := n_scale (le_out e)) in *.
      destruct (ng_zp _ _ HG) as (zh & ZH1 & ZH2). assert (EZH : zp0 (le_out e) = zh) by (unfold zp0; now rewrite ZH1).
      pose proof (C51_hidden_state _ _ _ _ _ _ _ _ _ _ _ (nth j ao 0) (nth j aa 0) Bld PH) as CS.
      rewrite (ng_dtype _ _ HG) in CS. specialize (CS ltac:(unfold short in SH; lia)). cbv zeta in CS.
      cbn [gnode gn_out] in CS. fold (val (x_gate e 3) (nth j ao 0)) (val (x_act e) (nth j aa 0)) sh in CS. rewrite EZH in CS.
      set (vo := val (x_gate e 3) (nth j ao 0)) in *. set (va := val (x_act e) (nth j aa 0)) in *.
      set (cd := (vo * va / sh + inject_Z zh)%Q) in *.
      assert (SM : small_Q cd).
      { assert (G3 : node_good (x_gate e 3) (q_rec_add q)) by (rewrite <- (gl_act _ _ GD); apply GG; lia).
        assert (PM5 : (0 < n_scale (x_gate e 3) * n_scale (x_act e) / sh)%Q).
        { apply Qlt_shift_div_l; [exact PH|]. rewrite Qmult_0_l. apply Qmult_lt_0_compat; [apply (ng_pos _ _ G3)|apply (ng_pos _ _ AG)]. }
        pose proof (mult_small _ _ _ PM5 (lf_M5 _ _ _ FO) (val_abs _ _ _ Sr G3 I3) (val_abs _ _ _ Sc AG Ia)) as S1.
        unfold small_Q.
        setoid_replace cd with (n_scale (x_gate e 3) * n_scale (x_act e) / sh * (inject_Z (nth j ao 0%Z - zp0 (x_gate e 3)) * inject_Z (nth j aa 0%Z - zp0 (x_act e))) + inject_Z zh)%Q.
        - eapply Qle_trans; [apply Qabs_triangle|].
          assert (S2 : (Qabs (inject_Z zh) <= inject_Z (2 ^ 16))%Q).
          { change (Qabs (inject_Z zh)) with (inject_Z (Z.abs zh)). apply (proj1 (Zle_inj _ _)). pose proof (short_bits _ _ SH ZH2). lia. }
          eapply Qle_trans; [apply Qplus_le_compat; [exact S1|exact S2]|]. discriminate.
        - unfold cd, vo, va, val. field. lra. }
      specialize (CS SM).
      pose proof (prod_close (gt 3%nat j) (fn_tanh fn (st_c s' j)) vo va _ _ 1 N3 E3 Ea (fn_bounded 3 _) (fn_bounded 2 _)) as P1.
      assert (RC : (Qabs (cd - real_code (st_h s' j) sh zh) <= ((1 + bgate 3%nat eh) * ea + 1 * bgate 3%nat eh) / sh)%Q).
      { change (st_h s' j) with (gt 3%nat j * fn_tanh fn (st_c s' j))%Q. unfold cd, real_code.
        setoid_replace (vo * va / sh + inject_Z zh - (gt 3%nat j * fn_tanh fn (st_c s' j) / sh + inject_Z zh))%Q
          with ((vo * va - gt 3%nat j * fn_tanh fn (st_c s' j)) * / sh)%Q by (field; lra).
        rewrite Qabs_Qmult, (Qabs_pos (/ sh)) by (apply Qlt_le_weak, Qinv_lt_0_compat, PH).
        apply Qmult_le_compat_r; [exact P1|apply Qlt_le_weak, Qinv_lt_0_compat, PH]. }
      pose proof (HF _ (HH j Hj)) as FIT. rewrite (ng_dtype _ _ HG) in FIT. fold sh in FIT. rewrite EZH in FIT.
      pose proof (clampQ_near (gmin (q_hidden q)) (gmax (q_hidden q)) cd (real_code (st_h s' j) sh zh) (1#2) ltac:(unfold short in SH; lia) ltac:(discriminate) FIT) as CN.
      unfold val. fold sh. rewrite EZH. apply scale_dist; [exact PH|].
      set (v := hidden1 eng (nth j ao 0) (nth j aa 0)) in *. set (cl := clampQ (gmin (q_hidden q)) (gmax (q_hidden q)) cd) in *.
      assert (EE : (bhidden eh ec / sh == ((1 + bgate 3%nat eh) * ea + 1 * bgate 3%nat eh) / sh + (3#2))%Q).
      { unfold b_hidden. fold sh ea. field. lra. }
      rewrite EE. setoid_replace (inject_Z v - real_code (st_h s' j) sh zh)%Q with ((inject_Z v - cl) + (cl - real_code (st_h s' j) sh zh))%Q by ring.
      eapply Qle_trans; [apply Qabs_triangle|]. lra.
    - intros j Hj. change (st_h s' j) with (gt 3%nat j * fn_tanh fn (st_c s' j))%Q. rewrite Qabs_Qmult.
      apply Qle_trans with (1 * Qabs (fn_tanh fn (st_c s' j)))%Q; [apply Qmult_le_compat_r; [apply (fn_bounded 3)|apply Qabs_nonneg]|].
      rewrite Qmult_1_l. apply (fn_bounded 2).
    - intros g j Hg Hj. revert g Hg. apply lt4; cbn [nth]; [exact (D0 j Hj)|exact (D1 j Hj)|exact (D2 j Hj)|exact (D3 j Hj)].
    - exact ACT.
  Qed.

  (** ** a whole sample *)
  Notation bstate := (b_state l (q_cell q) e Ls Ds Lt Dt X ex).
  Notation bout := (b_out l (q_cell q) e Ls Ds Lt Dt X ex).
  Lemma run_close_all sq eng G xs xqs recs : engine_built sq eng G -> length xqs = length xs ->
    (forall t, (t < length xs)%nat -> xrow_ok (nth t xqs []) (nth t xs [])) -> lstm_covered fn l b T data xs ->
    row_run eng (repeat 0 n) (repeat 0 n) (map (map (fun v => i64 (v - zp0 input))) xqs) = Ok recs ->
    forall t, (t < length xs)%nat -> length (s_hidden (nth t recs dstep)) = n /\ (forall v, In v (s_hidden (nth t recs dstep)) -> in_dtype (q_hidden q) v) /\
      (forall j, (j < n)%nat -> (Qabs (val (le_out e) (nth j (s_hidden (nth t recs dstep)) 0%Z) - hidden_at fn l b xs t j) <= bout t)%Q) /\
      inner_close (nth t recs dstep) (state fn l b (firstn t xs)) (nth t xs []) (fst (bstate t)) (snd (bstate t)) /\
      crow_ok (s_cell (nth t recs dstep)) (st_c (state fn l b (firstn (S t) xs))) (bcell (fst (bstate t)) (snd (bstate t))).
  Proof.
    intros EB LX XR [CVp CVg CVc CVa CVh] RR.
    pose proof (row_run_nth _ _ _ _ _ RR) as ST. rewrite map_length, LX in ST.
    assert (MN : forall t, (t < length xs)%nat -> nth t (map (map (fun v => i64 (v - zp0 input))) xqs) [] = map (fun v => i64 (v - zp0 input)) (nth t xqs [])).
    { intros t Ht. apply (nth_map_in (map (fun v => i64 (v - zp0 input))) xqs t [] []). lia. }
    pose proof (gl_h _ _ GD) as SH. pose proof (le_hidden _ _ _ _ _ _ _ _ EX) as [HG _].
    (* one step from the invariant *)
    assert (ONE : forall t, (t < length xs)%nat ->
      hrow_ok (prev_h (repeat 0 n) recs t) (st_h (state fn l b (firstn t xs))) (fst (bstate t)) ->
      crow_ok (prev_c (repeat 0 n) recs t) (st_c (state fn l b (firstn t xs))) (snd (bstate t)) ->
      crow_ok (s_cell (nth t recs dstep)) (st_c (state fn l b (firstn (S t) xs))) (bcell (fst (bstate t)) (snd (bstate t))) /\
      length (s_hidden (nth t recs dstep)) = n /\ (forall v, In v (s_hidden (nth t recs dstep)) -> in_dtype (q_hidden q) v) /\
      (forall j, (j < n)%nat -> (Qabs (val (le_out e) (nth j (s_hidden (nth t recs dstep)) 0%Z) - st_h (state fn l b (firstn (S t) xs)) j) <= bhidden (fst (bstate t)) (snd (bstate t)))%Q) /\
      (forall j, (j < n)%nat -> (Qabs (st_h (state fn l b (firstn (S t) xs)) j) <= 1)%Q) /\
      inner_close (nth t recs dstep) (state fn l b (firstn t xs)) (nth t xs []) (fst (bstate t)) (snd (bstate t))).
    { intros t Ht HR CR. specialize (ST t Ht). rewrite MN in ST by exact Ht. rewrite (state_snoc fn l b xs t Ht).
      apply (step_close sq eng G _ _ _ _ _ _ _ _ EB (XR t Ht) HR CR ST).
      - intros g j Hg Hj. apply (CVp t g j Ht Hg Hj).
      - intros g j Hg Hj. apply (CVg t g j Ht Hg Hj).
      - intros j Hj. rewrite <- (state_snoc fn l b xs t Ht). apply (CVc t j Ht Hj).
      - intros j Hj. rewrite <- (state_snoc fn l b xs t Ht). apply (CVa t j Ht Hj).
      - intros j Hj. rewrite <- (state_snoc fn l b xs t Ht). apply (CVh t j Ht Hj). }
    assert (INV : forall t, (t < length xs)%nat ->
      hrow_ok (prev_h (repeat 0 n) recs t) (st_h (state fn l b (firstn t xs))) (fst (bstate t)) /\
      crow_ok (prev_c (repeat 0 n) recs t) (st_c (state fn l b (firstn t xs))) (snd (bstate t))).
    { induction t as [|t IH]; intros Ht.
      - cbn [prev_h prev_c b_state fst snd firstn]. unfold state. cbn [fold_left].
        destruct (le_cell _ _ _ _ _ _ _ _ EX) as [CG CZ]. pose proof (ng_pos _ _ CG) as PC.
        assert (RZ : forall v, In v (repeat 0 n) -> v = 0) by (intros v Hv; now apply repeat_spec in Hv).
        split.
        + split; [apply repeat_length|]. split; [intros v Hv; rewrite (RZ v Hv); discriminate|]. split; [discriminate|]. split.
          * intros k Hk. rewrite nth_repeat. cbn [st_h]. change (inject_Z 0) with 0%Q. setoid_replace (n_scale (le_out e) * 0 - 0)%Q with 0%Q by ring. discriminate.
          * intros k Hk. cbn [st_h]. discriminate.
        + split; [apply repeat_length|]. split.
          { intros v Hv. rewrite (RZ v Hv). pose proof (gl_cpos _ _ GD). pose proof (gl_csym _ _ GD). unfold in_dtype. lia. }
          split; [discriminate|]. split.
          * intros k Hk. rewrite nth_repeat. cbn [st_c]. unfold val, zp0. rewrite CZ. change (inject_Z (0 - 0)) with 0%Q.
            setoid_replace (n_scale (x_cell e) * 0 - 0)%Q with 0%Q by ring. discriminate.
          * intros k Hk. cbn [st_c]. change (Qabs 0) with 0%Q. apply Qmult_le_0_compat; [lra|].
            change 0%Q with (inject_Z 0). apply (proj1 (Zle_inj _ _)). pose proof (gl_cpos _ _ GD). lia.
      - destruct (IH ltac:(lia)) as [HR CR]. destruct (ONE t ltac:(lia) HR CR) as (C1 & H1 & H2 & H3 & H4 & _).
        cbn [prev_h prev_c b_state]. destruct (bstate t) as [eh ec]. cbn [fst snd] in *. split; [|exact C1].
        pose proof (ng_pos _ _ HG) as PH.
        split; [exact H1|]. split.
        { intros v Hv. pose proof (short_bits _ _ SH (H2 v Hv)). lia. }
        assert (BD : forall k, (k < n)%nat -> (Qabs (n_scale (le_out e) * inject_Z (nth k (s_hidden (nth t recs dstep)) 0%Z) - st_h (state fn l b (firstn (S t) xs)) k) <= bhidden eh ec + zp_err e)%Q).
        { intros k Hk. specialize (H3 k Hk). unfold val in H3. rewrite inject_Z_minus in H3.
          set (v := inject_Z (nth k (s_hidden (nth t recs dstep)) 0%Z)) in *. set (h := st_h (state fn l b (firstn (S t) xs)) k) in *.
          setoid_replace (n_scale (le_out e) * v - h)%Q with ((n_scale (le_out e) * (v - inject_Z (zp0 (le_out e))) - h) + n_scale (le_out e) * inject_Z (zp0 (le_out e)))%Q by ring.
          eapply Qle_trans; [apply Qabs_triangle|]. apply Qplus_le_compat; [exact H3|].
          rewrite Qabs_Qmult, (Qabs_pos (n_scale (le_out e))) by lra. unfold zp_err. apply Qle_refl. }
        split; [eapply Qle_trans; [apply Qabs_nonneg|apply (BD 0%nat (ls_units _ _ _ _ Sh))]|]. split; [exact BD|exact H4]. }
    intros t Ht. destruct (INV t Ht) as [HR CR]. destruct (ONE t Ht HR CR) as (C1 & H1 & H2 & H3 & _ & H5).
    split; [exact H1|]. split; [exact H2|]. split; [|split; [exact H5|exact C1]]. intros j Hj. unfold b_out. specialize (H3 j Hj). destruct (bstate t) as [eh ec]. exact H3.
  Qed.
  Lemma run_close sq eng G xs xqs recs : engine_built sq eng G -> length xqs = length xs ->
    (forall t, (t < length xs)%nat -> xrow_ok (nth t xqs []) (nth t xs [])) -> lstm_covered fn l b T data xs ->
    row_run eng (repeat 0 n) (repeat 0 n) (map (map (fun v => i64 (v - zp0 input))) xqs) = Ok recs ->
    forall t, (t < length xs)%nat -> length (s_hidden (nth t recs dstep)) = n /\ (forall v, In v (s_hidden (nth t recs dstep)) -> in_dtype (q_hidden q) v) /\
      forall j, (j < n)%nat -> (Qabs (val (le_out e) (nth j (s_hidden (nth t recs dstep)) 0%Z) - hidden_at fn l b xs t j) <= bout t)%Q.
  Proof.
    intros EB LX XR CV RR t Ht. destruct (run_close_all sq eng G xs xqs recs EB LX XR CV RR t Ht) as (A & B & C & _).
    split; [exact A|]. split; [exact B|exact C].
  Qed.
  (** the engine never raises *)
  Lemma run_total sq eng G T' samples : engine_built sq eng G -> (0 < T')%nat -> samples <> [] ->
    (forall s t, In s samples -> (t < T')%nat -> length (nth t s []) = nf) -> exists r, lstm_infer eng T' samples = Ok r.
  Proof.
    intros [Bld BG Bi Bf Bc Bo Li Lf Lc Lo Lst Izp Rdt Sdt Hdt Cls Sq] HT NE HS.
    pose proof (gl_r _ _ GD) as Sr. pose proof (gl_c _ _ GD) as Sc.
    assert (CVR : forall g, (g < 4)%nat -> covers (tab_act (q_rec_add q) (gate_fn fn g) (x_pre e g) (x_gate e g)) (q_rec_add q)).
    { intros g Hg v Hv. pose proof (le_table _ _ _ _ _ _ _ _ EX g Hg) as HTT. destruct (le_pre _ _ _ _ _ _ _ _ EX g Hg) as [PG _]. eexists.
      apply (table_lookup _ _ _ _ _ _ v HTT (table_built _ _ _ _ _ HTT) (short_narrow _ Sr) (ng_zp _ _ PG) Hv). }
    assert (CVC : covers (tab_act (q_cell q) (fn_tanh fn) (x_cell e) (x_act e)) (q_cell q)).
    { intros v Hv. pose proof (le_act_table _ _ _ _ _ _ _ _ EX) as HTT. destruct (le_cell _ _ _ _ _ _ _ _ EX) as [PG _]. eexists.
      apply (table_lookup _ _ _ _ _ _ v HTT (table_built _ _ _ _ _ HTT) (short_narrow _ Sc) (ng_zp _ _ PG) Hv). }
    assert (GO : forall g, (g < 4)%nat -> gate_ok n nf (G g)) by (intros g Hg; exact (conj (gb_klen _ _ (BG g Hg)) (gb_ulen _ _ (BG g Hg)))).
    assert (I64 : int64_dtype (q_rec_add q)).
    { unfold short in Sr. unfold int64_dtype. assert (2 ^ 16 = 65536) by reflexivity. assert (2 ^ 63 = 9223372036854775808) by reflexivity. lia. }
    assert (SC1 : gmin (q_cell q) <= gmax (q_cell q)) by (unfold short in Sc; lia).
    assert (L0 : (0 < 4)%nat) by lia. assert (L1 : (1 < 4)%nat) by lia. assert (L2 : (2 < 4)%nat) by lia. assert (L3 : (3 < 4)%nat) by lia.
    rewrite <- Cls in GO. rewrite <- Rdt in I64. rewrite <- Sdt in SC1.
    assert (K0 := CVR 0%nat L0). assert (K1 := CVR 1%nat L1). assert (K2 := CVR 2%nat L2). assert (K3 := CVR 3%nat L3). clear CVR.
    rewrite <- Li, <- Rdt in K0. rewrite <- Lf, <- Rdt in K1. rewrite <- Lc, <- Rdt in K2. rewrite <- Lo, <- Rdt in K3. rewrite <- Lst, <- Sdt in CVC.
    assert (O0 := GO 0%nat L0). assert (O1 := GO 1%nat L1). assert (O2 := GO 2%nat L2). assert (O3 := GO 3%nat L3). clear GO.
    rewrite <- Bi in O0. rewrite <- Bf in O1. rewrite <- Bc in O2. rewrite <- Bo in O3.
    assert (UP : (0 < l_cells eng)%nat) by (rewrite Cls; apply (ls_units _ _ _ _ Sh)).
    exact (C25_never_raises eng nf T' samples I64 SC1 O0 O1 O2 O3 K0 K1 K2 K3 CVC UP HT NE HS).
  Qed.
End Run.
