(** C51: a whole recorded time step of an inference, against the file's nodes. *)
From Verif Require Import Base BaseProofs DtypeModel QuantModel QuantProofs LutModel FcModel FcLayer EngineModel EngineProofs
  LstmModel LstmProofs PropCore PropFc PropEngine PropLstm.
From Coq Require Import Lqa.
Open Scope Z_scope.
Open Scope list_scope.

(** ** Specification vocabulary *)
(** the codes of a node's tensor, relative to its zero point *)
Definition rel (n : node) : list (list Z) := map (map (fun v => v - zp0 n)) (n_tensor n).
(** contribution of the input row xq (codes) and the bias to cell j of a gate, and of the hidden codes h; in integer codes *)
Definition in_sum (input : node) (gn : gate_nodes) (xq : list Z) (j : nat) : Z :=
  dot_col j (map (fun v => v - zp0 input) xq) (rel (gn_kernel gn)).
Definition bias_code (gn : gate_nodes) (j : nat) : Z := nth j (hd [] (rel (gn_bias gn))) 0.
Definition rec_sum (gn : gate_nodes) (h : list Z) (j : nat) : Z := dot_col j h (rel (gn_rec gn)).
Definition in_int64 (z : Z) : Prop := - 2 ^ 63 <= z <= 2 ^ 63 - 1.
Definition tensor_int64 (n : node) : Prop := forall r v, In r (rel n) -> In v r -> in_int64 v.
(** nothing overflows int64 while cell j of the gate is computed *)
Definition gate_fits (input hidden : node) (gn : gate_nodes) (xq h : list Z) (j : nat) : Prop :=
  tensor_int64 (gn_kernel gn) /\ tensor_int64 (gn_rec gn) /\ tensor_int64 (gn_bias gn) /\
  (forall v, In v xq -> in_int64 (v - zp0 input)) /\
  small_Z (in_sum input gn xq j) /\ small_Z (bias_code gn j) /\ small_Z (in_sum input gn xq j + bias_code gn j) /\ small_Z (rec_sum gn h j * 2) /\
  small_Q (n_scale (gn_kernel gn) * n_scale input / (n_scale hidden * n_scale (gn_rec gn)) * inject_Z (in_sum input gn xq j + bias_code gn j) * 2).
Definition gate_scales (gn : gate_nodes) : Prop := (0 < n_scale (gn_kernel gn) /\ 0 < n_scale (gn_rec gn) /\ 0 < n_scale (gn_radd gn))%Q.
(** v is the entry a node's full table holds for code p *)
Definition reads (n : node) (p v : Z) : Prop := forall j tb off, n_lut n = Some j -> lj_reduced j = None -> lj_table j = Some tb ->
  lj_offset j = Some off -> 0 <= p + off < Z.of_nat (length tb) -> v = nth (Z.to_nat (p + off)) tb 0.
(** a recorded tensor of row b after t steps; code 0 everywhere before the first one *)
Definition after (n : nat) (rec : list (list step_rec)) (f : step_rec -> list Z) (t b : nat) : list Z :=
  match t with O => repeat 0 n | S k => f (nth b (nth k rec []) dstep) end.

Lemma centred_rel n k : centred n = Ok k -> tensor_int64 n -> k = rel n.
Proof.
  unfold centred, rel, tensor_int64, rel, zp0. destruct (n_zp n) as [z|]; [|discriminate]. intros E F.
  assert (E' : k = map (map (fun v => i64 (v - z))) (n_tensor n)) by congruence. subst k. clear E.
  apply map_ext_in. intros r Hr. apply map_ext_in. intros v Hv. apply i64_id.
  apply (F (map (fun v => v - z) r) (v - z)); [apply in_map_iff; exists r; auto|apply in_map_iff; exists v; auto].
Qed.

Lemma build_gate_parts input hidden gn g : build_gate input hidden gn = Ok g ->
  centred (gn_kernel gn) = Ok (g_kernel g) /\ centred (gn_rec gn) = Ok (g_rec g) /\
  (exists b, centred (gn_bias gn) = Ok b /\ g_bias g = hd [] b) /\
  g_M1 g = (n_scale (gn_kernel gn) * n_scale input / (n_scale hidden * n_scale (gn_rec gn)))%Q.
Proof.
  unfold build_gate. intros H.
  destruct (centred (gn_kernel gn)) as [k|]; [|discriminate]. cbn [rbind] in H.
  destruct (centred (gn_rec gn)) as [r|]; [|discriminate]. cbn [rbind] in H.
  destruct (centred (gn_bias gn)) as [b|]; [|discriminate]. cbn [rbind] in H.
  destruct (py_div (n_scale (gn_kernel gn) * n_scale input) (n_scale hidden * n_scale (gn_rec gn))) as [m1|] eqn:E1; [|discriminate]. cbn [rbind] in H.
  destruct (py_div (n_scale (gn_rec gn) * n_scale hidden) (n_scale (gn_radd gn))) as [m2|] eqn:E2; [|discriminate]. cbn [rbind] in H.
  assert (E : g = mkgate k r (hd [] b) m1 m2 (zp0 (gn_radd gn))) by congruence. subst g. cbn [g_kernel g_rec g_bias g_M1].
  apply py_div_inv in E1 as (_ & ->). repeat split. exists b. split; reflexivity.
Qed.

Lemma lstm_build_parts input hidden state act_in act_out gi gf gc go sq l :
  lstm_build input hidden state act_in act_out gi gf gc go sq = Ok l ->
  (build_gate input hidden gi = Ok (l_in l) /\ build_gate input hidden gf = Ok (l_forget l) /\
   build_gate input hidden gc = Ok (l_cell l) /\ build_gate input hidden go = Ok (l_out l)) /\
  (lut_from_node (n_lut (gn_in gi)) = Ok (l_in_lut l) /\ lut_from_node (n_lut (gn_in gf)) = Ok (l_forget_lut l) /\
   lut_from_node (n_lut (gn_in gc)) = Ok (l_cell_lut l) /\ lut_from_node (n_lut (gn_in go)) = Ok (l_out_lut l) /\
   lut_from_node (n_lut act_in) = Ok (l_state_lut l)) /\
  l_rec_dtype l = n_dtype (gn_radd gi) /\ l_input_zp l = zp0 input.
Proof.
  intros Hb. unfold lstm_build in Hb. cbv zeta in Hb.
  repeat match type of Hb with rbind ?m _ = Ok _ => let D := fresh "D" in destruct m eqn:D; [cbn [rbind] in Hb|discriminate] end.
  match type of Hb with Ok ?t = _ => assert (E : l = t) by congruence end. rewrite E. cbn. repeat split; first [reflexivity|assumption].
Qed.

Lemma lut_row_nth a xs ys j : lut_row a xs = Ok ys -> (j < length xs)%nat ->
  lookup (la_table a) (nth j xs 0 + la_offset a) = Ok (nth j ys 0).
Proof.
  unfold lut_row. revert ys j. induction xs as [|x xs IH]; intros ys j H Hj; [simpl in Hj; lia|]. cbn [mapM] in H.
  destruct (lookup (la_table a) (x + la_offset a)) as [v|] eqn:E; [|discriminate]. cbn [rbind] in H.
  destruct (mapM _ xs) as [vs|] eqn:E2; [|discriminate]. cbn [rbind] in H.
  assert (ys = v :: vs) by congruence. subst ys. destruct j as [|j]; [exact E|]. cbn [nth]. apply IH; [reflexivity|simpl in Hj; lia].
Qed.
Lemma reads_intro n a p v : lut_from_node (n_lut n) = Ok a -> lookup (la_table a) (p + la_offset a) = Ok v -> reads n p v.
Proof.
  intros H L j tb off E1 E2 E3 E4 R. rewrite E1 in H. cbn [lut_from_node] in H. rewrite E2, E3, E4 in H.
  assert (a = mkact (Full tb) off) by congruence. subst a. cbn [la_table la_offset lookup] in L.
  rewrite (py_index_in_range tb (p + off) (nth (Z.to_nat (p + off)) tb 0)) in L by (try apply nth_error_nth'; lia). congruence.
Qed.

Lemma row_run_nth l xs : forall h c ss t, row_run l h c xs = Ok ss -> (t < length xs)%nat ->
  step_row l (match t with O => h | S k => s_hidden (nth k ss dstep) end) (match t with O => c | S k => s_cell (nth k ss dstep) end) (nth t xs [])
    = Ok (nth t ss dstep).
Proof.
  induction xs as [|x xs IH]; intros h c ss t H Ht; [simpl in Ht; lia|]. cbn [row_run] in H.
  destruct (step_row l h c x) as [s|] eqn:E; [|discriminate]. cbn [rbind] in H.
  destruct (row_run l (s_hidden s) (s_cell s) xs) as [ss'|] eqn:E2; [|discriminate]. cbn [rbind] in H.
  assert (ss = s :: ss') by congruence. subst ss. destruct t as [|t]; [exact E|].
  specialize (IH _ _ _ t E2 ltac:(simpl in Ht; lia)). cbn [nth]. destruct t; exact IH.
Qed.

Lemma recurrent_row_length n d g h b r : recurrent_row n d g h b = Ok r -> length r = n.
Proof.
  unfold recurrent_row. destruct (vecmat n h (g_rec g)); [|discriminate]. cbn [rbind]. intros E.
  match type of E with Ok ?t = _ => assert (r = t) by congruence end. subst r. now rewrite map_length, seq_length.
Qed.

(** one gate of one step, in terms of the file's nodes *)
Lemma gate_step input hidden gn g n d xq h b r :
  build_gate input hidden gn = Ok g -> (0 < n_scale input)%Q -> (0 < n_scale hidden)%Q -> gate_scales gn -> int64_dtype d ->
  bias_add_row n g (map (fun v => i64 (v - zp0 input)) xq) = Ok b -> recurrent_row n d g h b = Ok r ->
  forall j, (j < n)%nat -> gate_fits input hidden gn xq h j ->
  (Qabs (inject_Z (nth j r 0%Z) - clampQ (gmin d) (gmax d)
     (real_pre (n_scale (gn_kernel gn)) (n_scale input) (n_scale (gn_rec gn)) (n_scale hidden) (n_scale (gn_radd gn)) (zp0 (gn_radd gn))
        (in_sum input gn xq j + bias_code gn j) (rec_sum gn h j)))
   <= 1 + n_scale (gn_rec gn) * n_scale hidden / n_scale (gn_radd gn))%Q.
Proof.
  intros Hb Pi Ph (Pk & Pr & Pa) Hd Eb Er j Hj (T1 & T2 & T3 & X & S1 & S2 & S3 & S4 & S5).
  destruct (build_gate_parts _ _ _ _ Hb) as (K & R & (bb & B & B') & M1).
  apply centred_rel in K; [|exact T1]. apply centred_rel in R; [|exact T2]. apply centred_rel in B; [|exact T3]. subst bb.
  assert (EX : map (fun v => i64 (v - zp0 input)) xq = map (fun v => v - zp0 input) xq).
  { apply map_ext_in. intros v Hv. apply i64_id. apply (X v Hv). }
  rewrite EX in Eb.
  pose proof (C51_preactivation input hidden gn g n d (map (fun v => v - zp0 input) xq) h b r Hb Pk Pi Pr Ph Pa Hd Eb Er j Hj) as P.
  cbv zeta in P. rewrite K, R, B', M1 in P. apply P; assumption.
Qed.

(** ** The theorem *)
Theorem C51_recorded_step : forall input hidden state act_in act_out gi gf gc go sq l T samples o rec,
  lstm_build input hidden state act_in act_out gi gf gc go sq = Ok l -> lstm_infer l T samples = Ok (o, rec) ->
  let dr := n_dtype (gn_radd gi) in let ds := n_dtype act_out in let dh := n_dtype hidden in
  int64_dtype dr -> gmin ds <= gmax ds -> gmin dh <= gmax dh ->
  (0 < n_scale input)%Q -> (0 < n_scale hidden)%Q -> (0 < n_scale state)%Q ->
  (forall gn, In gn [gi; gf; gc; go] -> gate_scales gn) ->
  forall t b j, (t < T)%nat -> (b < length samples)%nat -> (j < l_cells l)%nat ->
  let s := nth b (nth t rec []) dstep in
  let xq := nth t (nth b samples []) [] in
  let h := after (l_cells l) rec s_hidden t b in
  let c := nth j (after (l_cells l) rec s_cell t b) 0 in
  let gate_code k := nth j (nth k (s_gates s) []) 0 in
  let val n q := (n_scale n * inject_Z (q - zp0 n))%Q in
  (forall k gn, nth_error [gi; gf; gc; go] k = Some gn -> gate_fits input hidden gn xq h j ->
     (Qabs (inject_Z (nth j (nth k (s_pre s) []) 0%Z) - clampQ (gmin dr) (gmax dr)
        (real_pre (n_scale (gn_kernel gn)) (n_scale input) (n_scale (gn_rec gn)) (n_scale hidden) (n_scale (gn_radd gn)) (zp0 (gn_radd gn))
           (in_sum input gn xq j + bias_code gn j) (rec_sum gn h j)))
      <= 1 + n_scale (gn_rec gn) * n_scale hidden / n_scale (gn_radd gn))%Q) /\
  (forall k gn, nth_error [gi; gf; gc; go] k = Some gn -> reads (gn_in gn) (nth j (nth k (s_pre s) []) 0) (gate_code k)) /\
  (let new := ((val (gn_out gf) (gate_code 1%nat) * val state c + val (gn_out gi) (gate_code 0%nat) * val (gn_out gc) (gate_code 2%nat))
               / n_scale state + inject_Z (zp0 state))%Q in
   small_Q new -> (Qabs (inject_Z (nth j (s_cell s) 0%Z) - clampQ (gmin ds) (gmax ds) new) <= 1)%Q) /\
  reads act_in (nth j (s_cell s) 0) (nth j (s_act s) 0) /\
  (let new := (val (gn_out go) (gate_code 3%nat) * val act_out (nth j (s_act s) 0%Z) / n_scale hidden + inject_Z (zp0 hidden))%Q in
   small_Q new -> (Qabs (inject_Z (nth j (s_hidden s) 0%Z) - clampQ (gmin dh) (gmax dh) new) <= 1)%Q).
Proof.
  intros input hidden state act_in act_out gi gf gc go sq l T samples o rec Hb H dr ds dh Hr Hs Hh Pi Ph Ps Pg t b j Ht Hbs Hj s xq h c gate_code val.
  destruct (infer_sizes _ _ _ _ _ H) as (_ & HB & Hn). apply infer_inv in H as (R & _ & _).
  apply (infer_rows l T samples rec HB Hn) in R as (L & _ & R).
  destruct (nth_error samples b) as [sm|] eqn:Esm; [|apply nth_error_None in Esm; lia].
  specialize (R b sm Esm).
  assert (EXQ : nth t sm [] = xq) by (unfold xq; now rewrite (nth_error_nth _ _ [] Esm)).
  destruct (lstm_build_parts _ _ _ _ _ _ _ _ _ _ _ Hb) as ((G1 & G2 & G3 & G4) & (U1 & U2 & U3 & U4 & U5) & RD & IZ).
  apply row_run_nth with (t := t) in R; [|now rewrite map_length, seq_length].
  assert (NT : forall (F : nat -> list Z), nth t (map F (seq 0 T)) [] = F t).
  { intros F. rewrite (nth_indep _ [] (F 0%nat)) by (now rewrite map_length, seq_length).
    rewrite map_nth. now rewrite seq_nth by exact Ht. }
  rewrite NT, EXQ in R. clear NT.
  assert (NB : forall k, nth k (rowb dstep b rec) dstep = nth b (nth k rec []) dstep).
  { intros k. unfold rowb. destruct (Nat.lt_ge_cases k (length rec)) as [Lk|Lk].
    - rewrite (nth_indep _ dstep (nth b [] dstep)) by now rewrite map_length. apply (map_nth (fun x => nth b x dstep)).
    - rewrite nth_overflow by now rewrite map_length. rewrite (nth_overflow rec) by exact Lk. now destruct b. }
  assert (E1 : (match t with O => repeat 0 (l_cells l) | S k => s_hidden (nth k (rowb dstep b rec) dstep) end) = h).
  { unfold h, after. destruct t; [reflexivity|]. now rewrite NB. }
  assert (E2 : nth j (match t with O => repeat 0 (l_cells l) | S k => s_cell (nth k (rowb dstep b rec) dstep) end) 0 = c).
  { unfold c, after. destruct t; [reflexivity|]. now rewrite NB. }
  rewrite E1, NB in R. fold s in R. rewrite IZ in R.
  set (cc := match t with O => repeat 0 (l_cells l) | S k => s_cell (nth k (rowb dstep b rec) dstep) end) in *.
  clear E1 NB. unfold step_row in R. cbv zeta in R.
  repeat match type of R with rbind ?m _ = Ok _ => let D := fresh "D" in destruct m eqn:D; [cbn [rbind] in R|discriminate] end.
  match type of R with Ok ?u = _ => assert (E : s = u) by congruence end. clear R.
  repeat match goal with D : recurrent_row _ (l_rec_dtype l) _ _ _ = _ |- _ => rewrite RD in D end.
  assert (NM : forall (F : nat -> Z), nth j (map F (seq 0 (l_cells l))) 0 = F j).
  { intros F. rewrite (nth_indep _ 0 (F 0%nat)) by (now rewrite map_length, seq_length).
    rewrite map_nth. now rewrite seq_nth by exact Hj. }
  subst gate_code. cbv beta. rewrite E. cbn [s_pre s_gates s_cell s_act s_hidden].
  repeat match goal with D : recurrent_row _ _ _ _ _ = Ok ?r |- _ => pose proof (recurrent_row_length _ _ _ _ _ _ D); revert D end. intros.
  split; [|split; [|split; [|split]]].
  - intros k gn Hk F. 
    destruct k as [|[|[|[|k]]]]; cbn [nth_error] in Hk; [| | | |destruct k; discriminate];
      (assert (Egn : gn = gi \/ gn = gf \/ gn = gc \/ gn = go) by (injection Hk as <-; auto));
      injection Hk as <-; cbn [nth];
      (eapply gate_step; [eassumption|exact Pi|exact Ph|apply Pg; cbn [In]; auto|exact Hr|eassumption|eassumption|exact Hj|exact F]).
  - intros k gn Hk. destruct k as [|[|[|[|k]]]]; cbn [nth_error] in Hk; [| | | |destruct k; discriminate];
      injection Hk as <-; cbn [nth]; (eapply reads_intro; [eassumption|eapply lut_row_nth; [eassumption|congruence]]).
  - intros Sm. cbn [nth] in *. rewrite NM, E2.
    exact (C51_cell_state _ _ _ _ _ _ _ _ _ _ _ _ c _ _ Hb Ps Hs Sm).
  - eapply reads_intro; [exact U5|]. eapply lut_row_nth; [eassumption|now rewrite map_length, seq_length].
  - intros Sm. cbn [nth] in *. rewrite NM.
    exact (C51_hidden_state _ _ _ _ _ _ _ _ _ _ _ _ _ Hb Ph Hh Sm).
Qed.

(** ** A concrete case: second step of the second sample of a two-sample batch.  All hypotheses hold, nothing overflows, and every bound is met
    by non-zero values. *)
Example C51_step_example : let inn := enode (1#16) 0 int8 in let gk := egate 16 idf in let gf := egate 16 (fun _ => 1%Q) in
  exists l o rec, lstm_build inn inn inn (lnode idf int8 0 0) inn gk gf gk gk true = Ok l /\
  lstm_infer l 3 [[[32]; [16]; [8]]; [[-64]; [20]; [0]]] = Ok (o, rec) /\
  (int64_dtype int8 /\ gmin int8 <= gmax int8 /\ (0 < 1#16)%Q /\ (forall gn, In gn [gk; gf; gk; gk] -> gate_scales gn)) /\
  let s := nth 1 (nth 1 rec []) dstep in
  after 1 rec s_hidden 1 1 = [-128] /\ s_pre s = [[20]; [20]; [20]; [20]] /\ s_gates s = [[20]; [16]; [20]; [20]] /\
  (forall k gn, nth_error [gk; gf; gk; gk] k = Some gn -> gate_fits inn inn gn [20] [-128] 0) /\
  (in_sum inn gk [20] 0 + bias_code gk 0 = 320 /\ rec_sum gk [-128] 0 = 0) /\
  s_cell s = [127] /\ s_act s = [127] /\ s_hidden s = [127].
Proof.
  cbv zeta. eexists; eexists; eexists. split; [reflexivity|]. split; [vm_compute; reflexivity|].
  split.
  { split; [vm_compute; intuition discriminate|]. split; [discriminate|]. split; [reflexivity|].
    intros gn [<-|[<-|[<-|[<-|[]]]]]; repeat split. }
  split; [reflexivity|]. split; [reflexivity|]. split; [reflexivity|]. split.
  { assert (T : forall n, (exists s v, n = tnode s v /\ in_int64 v) -> tensor_int64 n).
    { intros n (s & v & -> & B) r w [<-|[]] [<-|[]]. now rewrite Z.sub_0_r. }
    assert (G : forall f, gate_fits (enode (1#16) 0 int8) (enode (1#16) 0 int8) (egate 16 f) [20] [-128] 0).
    { intros f. split; [apply T; do 2 eexists; split; [reflexivity|split; discriminate]|].
      split; [apply T; do 2 eexists; split; [reflexivity|split; discriminate]|].
      split; [apply T; do 2 eexists; split; [reflexivity|split; discriminate]|].
      split; [intros v [<-|[]]; split; discriminate|].
      split; [discriminate|]. split; [discriminate|]. split; [discriminate|]. split; discriminate. }
    intros k gn Hk. destruct k as [|[|[|[|k]]]]; cbn [nth_error] in Hk; [| | | |destruct k; discriminate];
      injection Hk as <-; apply G. }
  split; [split; reflexivity|]. split; [reflexivity|]. split; reflexivity.
Qed.
