(** Properties C61-C63: the quantizer's LSTM layer (float reference pass, export) and the inference engine running the exported
    operator.  The vocabulary (textbook LSTM, calibration hull, error bound) is in KLstmSpec.v. *)
From Verif Require Import Base BaseProofs DtypeModel DtypeProofs QuantModel QuantProofs LutModel LutProofs FcModel FcProofs FcLayer
  EngineModel EngineProofs DistModel DistProofs BuildModel PipeModel LstmModel KLstmModel PropCore PropFc PropEngine PropDist PropNodeLut PipeSpec PipeProofs
  LstmProofs PropLstm KLstmSpec KLstmProofs KLstmError.
From Verif Require NodeModel.
From Coq Require Import Lqa Qminmax.
Open Scope Z_scope.
Open Scope list_scope.

(** ** C61: the float reference pass is the LSTM recurrence *)
Lemma agree_eq n v f : agree n v f -> v = map f (seq 0 n).
Proof.
  intros [L H]. apply nth_ext with (d := 0%Q) (d' := 0%Q); [now rewrite map_length, seq_length|].
  intros j Hj. rewrite L in Hj. rewrite (nth_map_seq f n j) by exact Hj. now apply H.
Qed.
(** Every recorded tensor of every step, for every sample of the batch, is the textbook value, whatever the batch around it. *)
Theorem C61_records : forall fn l b T data i t, lstm_shaped l b T data -> (i < length data)%nat -> (t < T)%nat ->
  let r := nth i (nth t (reference fn l b T data) []) (mkfs [] [] [] [] [] [] [] []) in
  let units := seq 0 (kl_units l) in let xs := nth i data [] in
  length (fs_pre r) = (4 * kl_units l)%nat /\
  (forall g, (g < 4)%nat -> part (kl_units l) g (fs_pre r) = map (pre_at fn l b xs t g) units) /\
  fs_i r = map (gate_at fn l b xs t 0) units /\ fs_f r = map (gate_at fn l b xs t 1) units /\
  fs_g r = map (gate_at fn l b xs t 2) units /\ fs_o r = map (gate_at fn l b xs t 3) units /\
  fs_c r = map (cell_at fn l b xs t) units /\ fs_a r = map (act_at fn l b xs t) units /\ fs_h r = map (hidden_at fn l b xs t) units.
Proof.
  intros fn l b T data i t S Hi Ht. cbv zeta. destruct (reference_spec fn l b T data i t S Hi Ht) as (P1 & P2 & Gi & Gf & Gg & Go & Gc & Ga & Gh).
  fold dfs. set (r := nth i (nth t (reference fn l b T data) []) dfs) in *.
  split; [exact P1|]. split.
  { intros g Hg. apply agree_eq. split; [now apply part_length|]. intros j Hj. rewrite part_nth by exact Hj. rewrite P2 by assumption. reflexivity. }
  repeat split; apply agree_eq; assumption.
Qed.
(** The pass covers every step of every sample once. *)
Theorem C61_sizes : forall fn l b T data, length (reference fn l b T data) = T /\ forall step, In step (reference fn l b T data) -> length step = length data.
Proof. exact reference_shape. Qed.
(** The data handed to the next layer: all hidden states (sample by sample) or the last one of each sample. *)
Theorem C61_handed_on : forall fn dt l b input T data e, lstm_shaped l b T data -> klstm_quantize fn dt l input T data = Ok e ->
  let units := seq 0 (kl_units l) in
  le_data e = if kl_seq l then D3 (map (fun xs => map (fun t => map (hidden_at fn l b xs t) units) (seq 0 T)) data)
              else D2 (map (fun xs => map (hidden_at fn l b xs (T - 1)) units) data).
Proof.
  intros fn dt l b input T data e S E. cbv zeta.
  assert (D : le_data e = reference_result l (length data) (reference fn l b T data)).
  { unfold klstm_quantize in E. rewrite (ls_bias _ _ _ _ S) in E.
    repeat match type of E with
    | (do _ <- ?x; _) = _ => destruct x; [|discriminate E]; cbn [rbind] in E
    | (if ?x then _ else _) = _ => destruct x; [discriminate E|]
    | (let _ := _ in _) = _ => cbv zeta in E
    end.
    match type of E with Ok ?a = _ => assert (X : e = a) by congruence end. rewrite X. reflexivity. }
  rewrite D. unfold reference_result. destruct (reference_shape fn l b T data) as [L1 L2].
  assert (ROW : forall i t, (i < length data)%nat -> (t < T)%nat ->
    nth i (nth t (map (map fs_h) (reference fn l b T data)) []) [] = map (hidden_at fn l b (nth i data []) t) (seq 0 (kl_units l))).
  { intros i t Hi Ht. rewrite (nth_map_in (map fs_h) _ t []) by lia.
    assert (LS : length (nth t (reference fn l b T data) []) = length data) by (apply L2, nth_In; lia).
    rewrite (nth_map_in fs_h _ i dfs) by lia.
    destruct (C61_records fn l b T data i t S Hi Ht) as (_ & _ & _ & _ & _ & _ & _ & _ & H). exact H. }
  set (hs := map (map fs_h) (reference fn l b T data)) in *.
  assert (LH : length hs = T) by (unfold hs; now rewrite map_length).
  destruct (kl_seq l).
  - f_equal. apply nth_ext with (d := []) (d' := []); [now rewrite !map_length, seq_length|].
    intros i Hi. rewrite map_length, seq_length in Hi. rewrite (nth_map_seq (fun b0 => map (fun step => nth b0 step []) hs)) by exact Hi.
    rewrite (nth_map_in (fun xs => map (fun t => map (hidden_at fn l b xs t) (seq 0 (kl_units l))) (seq 0 T)) data i []) by exact Hi.
    apply nth_ext with (d := []) (d' := []); [rewrite !map_length, seq_length; exact LH|].
    intros t Ht. rewrite map_length, LH in Ht. rewrite (nth_map_in _ hs t []) by lia.
    rewrite (nth_map_seq (fun t => map (hidden_at fn l b (nth i data []) t) (seq 0 (kl_units l)))) by exact Ht. now apply ROW.
  - f_equal. pose proof (ls_T _ _ _ _ S) as TP.
    assert (LL : last hs [] = nth (T - 1) hs []).
    { destruct (exists_last (l := hs)) as (u & x & EU); [intros Z; rewrite Z in LH; cbn in LH; lia|].
      rewrite EU. rewrite last_last. rewrite EU, app_length in LH. cbn in LH. rewrite app_nth2 by lia. replace (T - 1 - length u)%nat with 0%nat by lia. reflexivity. }
    rewrite LL.
    assert (LN : length (nth (T - 1) hs []) = length data).
    { unfold hs. rewrite (nth_map_in (map fs_h) _ (T - 1) []) by lia. rewrite map_length. apply L2, nth_In. lia. }
    apply nth_ext with (d := []) (d' := []); [now rewrite map_length|].
    intros i Hi. rewrite LN in Hi. rewrite (nth_map_in (fun xs => map (hidden_at fn l b xs (T - 1)) (seq 0 (kl_units l))) data i []) by exact Hi.
    apply ROW; [exact Hi|lia].
Qed.

(** ** C62: the exported operator *)
(** what a weight node must be: every code is a value of the dtype, at most half a step from its weight *)
Definition weight_node (nd : node) (q : gdtype) (rows n : nat) (w : nat -> nat -> Q) : Prop :=
  node_good nd q /\ dims nd rows n /\
  forall k j, (k < rows)%nat -> (j < n)%nat -> in_dtype q (code nd k j) /\ (Qabs (val nd (code nd k j) - w k j) <= n_scale nd * (1#2))%Q.
(** what a node for an intermediate value must be: usable, and able to represent everything between the calibrated values *)
Definition value_node (nd : node) (q : gdtype) (data : list Q) : Prop :=
  node_good nd q /\ forall v, in_hull data v -> represents nd v.
(** the table attached to [nd] maps the code of v to the code of f v *)
Definition table_node (nd : node) (f : Q -> Q) (inp out : node) : Prop :=
  exists a, lut_from_node (n_lut nd) = Ok a /\
  forall c, in_dtype (n_dtype inp) c -> lookup (la_table a) (c + la_offset a) =
    Ok (quant1 (n_dtype inp) (zp0 out) (n_scale out) (f (inject_Z (c - zp0 inp) * n_scale inp)%Q)).
Theorem C62_export : forall fn dt q l b T data input, lstm_shaped l b T data -> good_ldt dt q ->
  exists e, klstm_quantize fn dt l input T data = Ok e /\ length (le_ins e) = 32%nat /\ x_in e = input /\
  let n := kl_units l in
  (forall g, (g < 4)%nat ->
     weight_node (x_kernel e g) (q_kernel q) (length (kl_K l)) n (entry (kl_K l) n g) /\
     weight_node (x_rec e g) (q_rec q) n n (entry (kl_U l) n g) /\
     n_scale (x_bias e g) = (n_scale input * n_scale (x_kernel e g))%Q /\ n_zp (x_bias e g) = Some 0 /\ dims (x_bias e g) 1 n /\
     ((0 < n_scale input)%Q -> forall j, (j < n)%nat -> gmin (q_bias q) < code (x_bias e g) 0 j < gmax (q_bias q) ->
        (Qabs (val (x_bias e g) (code (x_bias e g) 0 j) - nth (g * n + j) b 0) <= n_scale (x_bias e g) * (1#2))%Q) /\
     value_node (x_pre e g) (q_rec_add q) (calib (fun xs t j => pre_at fn l b xs t g j) n T data) /\
     value_node (x_gate e g) (q_act q) (gate_calib fn l b T data g) /\
     table_node (x_gate_in e g) (gate_fn fn g) (x_pre e g) (x_gate e g)) /\
  value_node (x_cell e) (q_cell q) (calib (cell_at fn l b) n T data) /\ n_zp (x_cell e) = Some 0 /\
  value_node (x_act e) (q_cell q) (calib (act_at fn l b) n T data) /\
  table_node (x_act_in e) (fn_tanh fn) (x_cell e) (x_act e) /\
  value_node (le_out e) (q_hidden q) (calib (hidden_at fn l b) n T data).
Proof.
  intros fn dt q l b T data input Sh GD. destruct (export_ok fn dt q l b T data input Sh GD) as (e & E & EX).
  exists e. split; [exact E|]. split; [apply (le_len _ _ _ _ _ _ _ _ EX)|]. split; [apply (le_input _ _ _ _ _ _ _ _ EX)|]. cbv zeta.
  pose proof (short_narrow _ (gl_k _ _ GD)) as Nk. pose proof (short_narrow _ (gl_u _ _ GD)) as Nu. pose proof (short_narrow _ (gl_h _ _ GD)) as Nh.
  pose proof (short_narrow _ (gl_c _ _ GD)) as Nc. pose proof (short_narrow _ (gl_r _ _ GD)) as Nr.
  assert (Na : narrow (q_act q)) by (rewrite (gl_act _ _ GD); exact Nr).
  assert (VN : forall nd q0 d, narrow q0 -> node_good nd q0 /\ nfits nd d -> value_node nd q0 d).
  { intros nd q0 d N [A B]. split; [exact A|]. intros v Hv. exact (nfits_represents nd q0 d v N A B Hv). }
  destruct (le_cell _ _ _ _ _ _ _ _ EX) as [CG CZ].
  assert (TN : forall nd q0 f inp out, narrow q0 -> node_good inp q0 -> has_table nd q0 f inp out -> table_node nd f inp out).
  { intros nd q0 f inp out N G H. exists (tab_act q0 f inp out). split; [apply table_built, H|]. rewrite (ng_dtype _ _ G).
    intros c Hc. exact (table_lookup _ _ _ _ _ _ c H (table_built _ _ _ _ _ H) N (ng_zp _ _ G) Hc). }
  split.
  { intros g Hg.
    destruct (le_kernel _ _ _ _ _ _ _ _ EX g Hg) as [K1 K2 K3]. destruct (le_rec _ _ _ _ _ _ _ _ EX g Hg) as [U1 U2 U3].
    rewrite (ls_Ul _ _ _ _ Sh) in U2, U3.
    split; [split; [exact K1|split; [exact K2|exact K3]]|]. split; [split; [exact U1|split; [exact U2|exact U3]]|].
    pose proof (le_bias _ _ _ _ _ _ _ _ EX g Hg) as EB.
    split; [rewrite EB; reflexivity|]. split; [rewrite EB; reflexivity|]. split.
    { rewrite EB. split; [reflexivity|]. cbn [gate_bias tensor_node n_tensor map]. intros r [<-|[]]. rewrite map_length.
      apply part_length; [apply (ls_blen _ _ _ _ Sh)|exact Hg]. }
    split.
    { intros Pi j Hj. rewrite EB. unfold val, code. cbn [gate_bias tensor_node n_tensor n_scale zp0 n_zp nth map].
      assert (LP : (j < length (part (kl_units l) g b))%nat) by (rewrite part_length; [exact Hj|apply (ls_blen _ _ _ _ Sh)|exact Hg]).
      rewrite (nth_map_in _ (part (kl_units l) g b) j 0%Q) by exact LP. rewrite part_nth by exact Hj. rewrite Z.sub_0_r.
      apply quant_bias_err; [apply (gl_b _ _ GD)|]. apply Qmult_lt_0_compat; [exact Pi|apply (ng_pos _ _ K1)]. }
    split; [apply VN; [exact Nr|apply (le_pre _ _ _ _ _ _ _ _ EX g Hg)]|].
    split; [apply VN; [exact Na|apply (le_gate _ _ _ _ _ _ _ _ EX g Hg)]|].
    apply (TN _ (q_rec_add q)); [exact Nr|apply (le_pre _ _ _ _ _ _ _ _ EX g Hg)|apply (le_table _ _ _ _ _ _ _ _ EX g Hg)]. }
  split.
  { apply VN; [exact Nc|]. split; [exact CG|]. intros v Hv. destruct (le_cell_fit _ _ _ _ _ _ _ _ EX v Hv) as [F1 F2].
    rewrite (ng_dtype _ _ CG). unfold real_code, zp0. rewrite CZ. change (inject_Z 0) with 0%Q.
    pose proof (proj1 (Zle_inj _ _) (gl_csym _ _ GD)) as M. rewrite inject_Z_opp in M. split; lra. }
  split; [exact CZ|]. split; [apply VN; [exact Nc|apply (le_act _ _ _ _ _ _ _ _ EX)]|].
  split; [apply (TN _ (q_cell q)); [exact Nc|exact CG|apply (le_act_table _ _ _ _ _ _ _ _ EX)]|].
  apply VN; [exact Nh|apply (le_hidden _ _ _ _ _ _ _ _ EX)].
Qed.
(** The four bias-addition inputs carry no tensor: the scale of gate g is the recurrent kernel's scale times the hidden state's, the
    zero point 0 and the dtype the configured one. *)
Theorem C62_bias_add_nodes : forall fn dt q l b T data input e g, lstm_shaped l b T data -> parse_ldtypes dt = Ok q ->
  klstm_quantize fn dt l input T data = Ok e -> (g < 4)%nat -> exists nd, nth_error (le_ins e) (13 + g) = Some nd /\
  n_scale nd = (n_scale (x_rec e g) * n_scale (le_out e))%Q /\ n_zp nd = Some 0 /\ n_dtype nd = q_bias_add q /\ n_tensor nd = [] /\ n_lut nd = None.
Proof.
  intros fn dt q l b T data input e g Sh Q E Hg. unfold klstm_quantize in E. rewrite (ls_bias _ _ _ _ Sh), Q in E. cbn [rbind] in E.
  destruct (T =? 0)%nat; [discriminate|].
  repeat match type of E with rbind ?x _ = _ => let H := fresh "B" in destruct x eqn:H; cbn [rbind] in E; [|discriminate E] end.
  injection E as E. subst e. unfold x_rec. cbn [le_ins le_out].
  destruct g as [|[|[|[|g]]]]; [| | | |lia]; (eexists; split; [reflexivity|]; cbn; repeat split).
Qed.
(** Layers without bias and empty sequences cannot be quantized. *)
Theorem C62_no_bias : forall fn dt l input T data, kl_B l = None -> klstm_quantize fn dt l input T data = Err EIndexError.
Proof. intros fn dt l input T data H. unfold klstm_quantize. now rewrite H. Qed.
Theorem C62_no_steps : forall fn dt l b input data, kl_B l = Some b -> (exists q, parse_ldtypes dt = Ok q) -> klstm_quantize fn dt l input 0 data = Err EIndexError.
Proof. intros fn dt l b input data H (q & E). unfold klstm_quantize. rewrite H, E. reflexivity. Qed.
(** The calibration samples themselves are covered by what was calibrated, provided the sequences are no longer than the layer is wide. *)
(** The engine refuses an operator with fewer than 32 inputs, and reads only the first 32. *)
Theorem C62_operator_inputs : forall ins out sq,
  ((length ins <= 21)%nat -> lstm_from_model ins out sq = Err EIndexError) /\
  ((22 <= length ins <= 31)%nat -> lstm_from_model ins out sq = Err EValueError) /\
  ((32 <= length ins)%nat -> forall more, lstm_from_model (ins ++ more) out sq = lstm_from_model ins out sq).
Proof.
  intros ins out sq. unfold lstm_from_model. split; [|split].
  - intros H. destruct (Nat.ltb_spec (length ins) 22); [reflexivity|lia].
  - intros H. destruct (Nat.ltb_spec (length ins) 22); [lia|]. destruct (Nat.ltb_spec (length ins) 32); [reflexivity|lia].
  - intros H more. rewrite app_length. destruct (Nat.ltb_spec (length ins + length more) 22); [lia|]. destruct (Nat.ltb_spec (length ins) 22); [lia|].
    destruct (Nat.ltb_spec (length ins + length more) 32); [lia|]. destruct (Nat.ltb_spec (length ins) 32); [lia|].
    cbv zeta. assert (N : forall k, (k < 32)%nat -> nth k (ins ++ more) dnode = nth k ins dnode) by (intros k Hk; apply app_nth1; lia).
    cbn [Nat.add Nat.mul]. rewrite !N by lia. reflexivity.
Qed.
Theorem C62_calibration_covered : forall fn l b T data xs, lstm_shaped l b T data -> In xs data -> (T <= kl_units l)%nat -> lstm_covered fn l b T data xs.
Proof.
  intros fn l b T data xs S Hx HT. pose proof (ls_time _ _ _ _ S xs Hx) as LX.
  apply In_nth with (d := []) in Hx as (i & Hi & EI).
  assert (H : forall (f : list (list Q) -> nat -> nat -> Q) t j, (t < length xs)%nat -> (j < kl_units l)%nat -> In (f xs t j) (calib f (kl_units l) T data)).
  { intros f t j Ht Hj. apply in_calib. exists i, t, j. repeat split; try assumption; [lia|]. now rewrite EI. }
  assert (HU : forall d v, In v d -> in_hull d v) by (intros d v Hv; exists v, v; repeat split; try (now right); apply Qle_refl).
  constructor.
  - intros t g j Ht Hg Hj. apply HU, (H (fun xs t j => pre_at fn l b xs t g j)); assumption.
  - intros t g j Ht Hg Hj. apply HU. unfold gate_calib. destruct (Nat.eqb_spec g 0) as [->|NE].
    + apply in_flat_map. exists 0%nat. split; [now left|]. rewrite Nat.min_l by exact HT.
      apply (H (fun xs t j => fn_sig fn (pre_at fn l b xs t 0%nat j))); assumption.
    + apply (H (fun xs t j => gate_at fn l b xs t g j)); assumption.
  - intros t j Ht Hj. apply HU, (H (cell_at fn l b)); assumption.
  - intros t j Ht Hj. apply HU, (H (act_at fn l b)); assumption.
  - intros t j Ht Hj. apply HU, (H (hidden_at fn l b)); assumption.
Qed.

(** ** C63: the engine running the exported operator *)
(** integer inputs standing for the real samples: values of the input dtype, at most [ex] away; rows of absolute sum at most X *)
Definition stands_for (input : node) (nf T : nat) (X ex : Q) (xq : list (list Z)) (xs : list (list Q)) : Prop :=
  length xs = T /\ length xq = T /\ forall t, (t < T)%nat ->
    length (nth t xs []) = nf /\ length (nth t xq []) = nf /\ (abssum (nth t xs []) <= X)%Q /\
    (forall v, In v (nth t xq []) -> in_dtype (n_dtype input) v) /\
    forall k, (k < nf)%nat -> (Qabs (val input (nth k (nth t xq []) 0%Z) - nth k (nth t xs []) 0) <= ex)%Q.
(** row t of the output for sample i, when there is one *)
Definition out_row (o : lstm_out) (T i t : nat) : option (list Z) :=
  match o with OSeq m => nth_error (nth i m []) t | OLast m => if (t =? T - 1)%nat then nth_error m i else None end.
Theorem C63_error : forall fn dt q l b T data input qi e Ls Ds Lt Dt,
  lstm_shaped l b T data -> good_ldt dt q -> node_good input qi -> short qi ->
  klstm_quantize fn dt l input T data = Ok e -> lstm_file_ok l (q_bias q) e ->
  bounded_lip (fn_sig fn) Ls Ds -> bounded_lip (fn_tanh fn) Lt Dt ->
  exists eng, lstm_from_model (le_ins e) (le_out e) (kl_seq l) = Ok eng /\
  forall T' X ex batch codes, (0 < T')%nat -> batch <> [] -> (0 <= ex)%Q ->
    Forall2 (stands_for input (length (kl_K l)) T' X ex) codes batch -> (forall xs, In xs batch -> lstm_covered fn l b T data xs) ->
  exists o rec, lstm_infer eng T' codes = Ok (o, rec) /\
    (forall i t, (i < length batch)%nat -> (t < T')%nat -> (out_row o T' i t <> None <-> kl_seq l = true \/ t = (T' - 1)%nat)) /\
    forall i t row, (i < length batch)%nat -> (t < T')%nat -> out_row o T' i t = Some row ->
      length row = kl_units l /\ forall j, (j < kl_units l)%nat -> in_dtype (q_hidden q) (nth j row 0) /\
        (Qabs (val (le_out e) (nth j row 0%Z) - hidden_at fn l b (nth i batch []) t j) <= b_out l (q_cell q) e Ls Ds Lt Dt X ex t)%Q.
Proof.
  intros fn dt q l b T data input qi e Ls Ds Lt Dt Sh GD IG IS EQ FO LS LT.
  destruct (export_ok fn dt q l b T data input Sh GD) as (e' & E' & EX). assert (e' = e) by congruence. subst e'. clear E'.
  destruct (engine_builds _ _ _ _ _ _ _ _ _ Sh GD EX FO (kl_seq l)) as (eng & G & EB).
  exists eng. split; [rewrite (from_model_eq _ _ _ _ _ _ _ _ EX); apply (eb_build _ _ _ _ _ _ _ _ EB)|].
  intros T' X ex batch codes HT NE E0 SF COV.
  pose proof (F2_length _ _ _ SF) as LB.
  assert (AT : forall i, (i < length batch)%nat -> stands_for input (length (kl_K l)) T' X ex (nth i codes []) (nth i batch [])).
  { clear - SF. induction SF as [|c x cs xs H _ IH]; intros i Hi; [cbn in Hi; lia|]. destruct i as [|i]; [exact H|]. apply IH. cbn in Hi. lia. }
  assert (NC : codes <> []) by (intros Z; rewrite Z in LB; destruct batch; [congruence|discriminate LB]).
  destruct (run_total _ _ _ _ _ _ _ _ _ Sh GD EX (kl_seq l) eng G T' codes EB HT NC) as ((o & rec) & RUN).
  { intros s t Hs Ht. apply In_nth with (d := []) in Hs as (i & Hi & <-). destruct (AT i ltac:(lia)) as (_ & _ & A). apply (A t Ht). }
  exists o, rec. split; [exact RUN|].
  destruct (infer_inv _ _ _ _ _ RUN) as (RS & NR & EO).
  pose proof (ls_units _ _ _ _ Sh) as UP. pose proof (eb_cells _ _ _ _ _ _ _ _ EB) as CL.
  assert (LC : (length codes <> 0)%nat) by (destruct codes; [congruence|cbn; lia]).
  assert (CN : (l_cells eng <> 0)%nat) by lia.
  apply (proj1 (infer_rows eng T' codes rec LC CN)) in RS as (LR & LRs & ROW).
  (* the hidden row of sample i at step t *)
  assert (HR : forall i t, (i < length batch)%nat -> (t < T')%nat ->
    let r := s_hidden (nth i (nth t rec []) dstep) in
    length r = kl_units l /\ forall j, (j < kl_units l)%nat -> in_dtype (q_hidden q) (nth j r 0) /\
      (Qabs (val (le_out e) (nth j r 0%Z) - hidden_at fn l b (nth i batch []) t j) <= b_out l (q_cell q) e Ls Ds Lt Dt X ex t)%Q).
  { intros i t Hi Ht. cbv zeta. destruct (AT i Hi) as (A1 & A2 & A3).
    assert (NI : nth_error codes i = Some (nth i codes [])) by (apply nth_error_nth'; lia).
    pose proof (ROW i _ NI) as RR. rewrite CL, (eb_izp _ _ _ _ _ _ _ _ EB) in RR.
    assert (EM : map (fun t => map (fun v => i64 (v - zp0 input)) (nth t (nth i codes []) [])) (seq 0 T') =
                 map (map (fun v => i64 (v - zp0 input))) (nth i codes [])).
    { transitivity (map (map (fun v => i64 (v - zp0 input))) (map (fun t => nth t (nth i codes []) []) (seq 0 T'))); [now rewrite map_map|].
      f_equal. rewrite <- A2. apply map_nth_id. }
    rewrite EM in RR.
    destruct (run_close _ _ _ _ _ _ _ _ _ _ Sh GD EX FO IG IS Ls Ds Lt Dt X ex LS LT E0 (kl_seq l) eng G (nth i batch []) (nth i codes []) (rowb dstep i rec) EB
      ltac:(congruence)) with (t := t) as (R1 & R2 & R3).
    - intros t' Ht'. rewrite A1 in Ht'. destruct (A3 t' Ht') as (B1 & B2 & B3 & B4 & B5).
      split; [exact B2|]. split; [exact B1|]. split; [rewrite <- (ng_dtype _ _ IG); exact B4|]. split; [exact B5|exact B3].
    - apply COV, nth_In, Hi.
    - exact RR.
    - lia.
    - unfold rowb in R1, R2, R3. rewrite (nth_map_in (fun x => nth i x dstep) rec t []) in R1, R2, R3 by lia.
      split; [exact R1|]. intros j Hj. split; [apply R2, nth_In; lia|apply R3, Hj]. }
  assert (OR : forall i t, (i < length batch)%nat -> (t < T')%nat ->
     out_row o T' i t = if kl_seq l then Some (s_hidden (nth i (nth t rec []) dstep)) else if (t =? T' - 1)%nat then Some (s_hidden (nth i (nth t rec []) dstep)) else None).
  { intros i t Hi Ht. rewrite EO, (eb_seq _ _ _ _ _ _ _ _ EB).
    assert (LN : forall t, (t < T')%nat -> length (nth t rec []) = length codes) by (intros u Hu; apply LRs, nth_In; lia).
    destruct (kl_seq l); cbn [out_row].
    - rewrite (nth_map_seq (fun b0 => map (fun step => nth b0 step []) (map (map s_hidden) rec))) by lia. rewrite map_map.
      rewrite (nth_error_nth' _ []) by (rewrite map_length; lia). f_equal.
      rewrite (nth_map_in (fun x => nth i (map s_hidden x) []) rec t []) by lia.
      rewrite (nth_map_in s_hidden _ i dstep) by (rewrite LN; lia). reflexivity.
    - destruct (Nat.eqb_spec t (T' - 1)) as [->|]; [|reflexivity].
      assert (LL : last (map (map s_hidden) rec) [] = map s_hidden (nth (T' - 1) rec [])).
      { destruct (exists_last (l := rec)) as (u & x & EU); [exact NR|]. rewrite EU, map_app. cbn [map]. rewrite last_last.
        rewrite EU, app_length in LR. cbn in LR. rewrite app_nth2 by lia. replace (T' - 1 - length u)%nat with 0%nat by lia. reflexivity. }
      rewrite LL. rewrite (nth_error_nth' _ []) by (rewrite map_length, LN; lia). f_equal.
      rewrite (nth_map_in s_hidden _ i dstep) by (rewrite LN; lia). reflexivity. }
  split.
  - intros i t Hi Ht. rewrite (OR i t Hi Ht). destruct (kl_seq l); [split; [now left|discriminate]|].
    destruct (Nat.eqb_spec t (T' - 1)); split; try discriminate; try congruence; [now right|]. intros [|]; [discriminate|congruence].
  - intros i t row Hi Ht ER. rewrite (OR i t Hi Ht) in ER.
    assert (row = s_hidden (nth i (nth t rec []) dstep)) as ->.
    { destruct (kl_seq l); [congruence|]. destruct (t =? T' - 1)%nat; congruence. }
    apply HR; assumption.
Qed.

(** ** Examples *)
(** piecewise-linear sigmoid and tanh *)
Definition hsig (v : Q) : Q := Qmax 0 (Qmin 1 (v * (1#4) + (1#2))).
Definition htanh (v : Q) : Q := Qmax (-1#1) (Qmin 1 v).
Definition hfn : lfns := mklfns hsig htanh.
Lemma clip_lip lo hi a c : (Qabs (Qmax lo (Qmin hi a) - Qmax lo (Qmin hi c)) <= Qabs (a - c))%Q.
Proof.
  apply Qabs_Qle_condition. pose proof (Qle_Qabs (a - c)) as A. pose proof (Qle_Qabs (c - a)) as B. rewrite (Qabs_Qminus c a) in B.
  destruct (Q.min_spec hi a) as [[? E]|[? E]], (Q.min_spec hi c) as [[? F]|[? F]];
  destruct (Q.max_spec lo (Qmin hi a)) as [[? G1]|[? G1]], (Q.max_spec lo (Qmin hi c)) as [[? G2]|[? G2]];
  rewrite ?G1, ?G2, ?E, ?F in *; split; lra.
Qed.
Lemma clip_in lo hi a : (lo <= hi)%Q -> (lo <= Qmax lo (Qmin hi a) <= hi)%Q.
Proof. intros L. split; [apply Q.le_max_l|]. apply Q.max_lub; [exact L|apply Q.le_min_l]. Qed.
Lemma hsig_lip : bounded_lip hsig (1#4) 0.
Proof.
  split; [discriminate|]. split; [discriminate|]. split.
  - intros a. apply Qabs_Qle_condition. unfold hsig. pose proof (clip_in 0 1 (a * (1#4) + (1#2)) ltac:(discriminate)). split; lra.
  - intros a c. unfold hsig. eapply Qle_trans; [apply clip_lip|].
    setoid_replace (a * (1#4) + (1#2) - (c * (1#4) + (1#2)))%Q with ((1#4) * (a - c))%Q by ring. rewrite Qabs_Qmult. change (Qabs (1#4)) with (1#4)%Q. lra.
Qed.
Lemma htanh_lip : bounded_lip htanh 1 0.
Proof.
  split; [discriminate|]. split; [discriminate|]. split.
  - intros a. apply Qabs_Qle_condition. unfold htanh. pose proof (clip_in (-1#1) 1 a ltac:(discriminate)). split; lra.
  - intros a c. unfold htanh. eapply Qle_trans; [apply clip_lip|]. lra.
Qed.
Definition ex_b : list Q := [0; 1; 0; 0; 1; 0; 0; 0]%Q.
Definition ex_l (sq : bool) : klstm := mkkl [] 2 [[1; -1#1; 0; 1; -1#1; 1; 1; 0]]%Q
  [[1; 0; 0; -1#1; 0; 1; 0; 1]; [0; 1; -1#1; 0; 1; -1#1; 0; 1]]%Q (Some ex_b) sq.
Definition ex_data : list (list (list Q)) := [[[1]; [-1#2]]; [[1#2]; [-1#1]]]%Q.
Definition q_i8 : gdtype := {| gmin := -128; gmax := 127; grepr := str "int8" |}.
Definition q_i32 : gdtype := {| gmin := - 2 ^ 31; gmax := 2 ^ 31 - 1; grepr := str "int32" |}.
Definition ex_q : lqs := mklqs q_i8 q_i8 q_i8 q_i8 q_i32 q_i8 q_i32 q_i8 q_i8.
Definition ex_in : node := plain_node (1#100) 0 q_i8.
Lemma ex_shaped sq : lstm_shaped (ex_l sq) ex_b 2 ex_data.
Proof.
  constructor; try reflexivity; try discriminate; try (cbn; lia).
  - intros r [<-|[]]; reflexivity.
  - intros r [<-|[<-|[]]]; reflexivity.
  - intros s [<-|[<-|[]]]; reflexivity.
  - intros s r [<-|[<-|[]]] [<-|[<-|[]]]; reflexivity.
Qed.
(** the dtypes every LSTM of the builder gets *)
Lemma default_good : good_ldt ldt_default ex_q.
Proof. constructor; try reflexivity; unfold short, within_int32; cbn [ex_q q_kernel q_rec q_hidden q_cell q_rec_add q_bias q_i8 q_i32 gmin gmax]; lia. Qed.
(** Every one of the nine dtype names must be known: the layer's dtypes are theirs, name by name, or the constructor raises. *)
Theorem C62_dtype_names : forall t q, parse_ldtypes t = Ok q <->
  parse_dtype (dt_kernel t) = Ok (q_kernel q) /\ parse_dtype (dt_rec t) = Ok (q_rec q) /\ parse_dtype (dt_hidden t) = Ok (q_hidden q) /\
  parse_dtype (dt_cell t) = Ok (q_cell q) /\ parse_dtype (dt_bias t) = Ok (q_bias q) /\ parse_dtype (dt_act t) = Ok (q_act q) /\
  parse_dtype (dt_bias_add t) = Ok (q_bias_add q) /\ parse_dtype (dt_rec_add t) = Ok (q_rec_add q) /\ parse_dtype (dt_out t) = Ok (q_out q).
Proof.
  intros t q. unfold parse_ldtypes. split.
  - intros H. repeat match type of H with rbind ?m _ = Ok _ => destruct m; [cbn [rbind] in H|discriminate H] end.
    match type of H with Ok ?x = _ => assert (E : q = x) by congruence end. rewrite E. cbn [q_kernel q_rec q_hidden q_cell q_bias q_act q_bias_add q_rec_add q_out].
    repeat split; reflexivity.
  - intros (-> & -> & -> & -> & -> & -> & -> & -> & ->). cbn [rbind]. destruct q; reflexivity.
Qed.
(** An LSTM layer of the builder always gets 8-bit kernels, states, outputs and sums of the recurrent part, and 32-bit biases and
    sums of the input part: what the theorems above need. *)
Theorem C62_default_dtypes : exists q, parse_ldtypes ldt_default = Ok q /\ good_ldt ldt_default q /\
  (forall d, In d [q_kernel q; q_rec q; q_hidden q; q_cell q; q_act q; q_rec_add q; q_out q] -> gmin d = -128 /\ gmax d = 127) /\
  (forall d, In d [q_bias q; q_bias_add q] -> gmin d = - 2 ^ 31 /\ gmax d = 2 ^ 31 - 1).
Proof.
  exists ex_q. split; [reflexivity|]. split; [exact default_good|]. split; intros d H; cbn [In ex_q q_kernel q_rec q_hidden q_cell q_act q_rec_add q_out q_bias q_bias_add] in H;
    repeat (destruct H as [<- |H]; [split; reflexivity|]); destruct H.
Qed.
(** the export of the layer on these samples ... *)
Definition ex_e : lstm_export := Eval vm_compute in
  match klstm_quantize hfn ldt_default (ex_l true) ex_in 2 ex_data with Ok e => e | Err _ => mkle [] dnode (D2 []) end.
Example ex_quantized : klstm_quantize hfn ldt_default (ex_l true) ex_in 2 ex_data = Ok ex_e.
Proof. vm_cast_no_check (eq_refl (Ok ex_e)). Qed.
(** ... the hidden states of the float pass (in thousandths) ... *)
Example ex_float : match le_data ex_e with D3 m => map (map (map (fun v => Qround_even (v * 1000)))) m | D2 _ => [] end
  = [[[0; 250]; [141; -290]]; [[195; 156]; [111; -528]]].
Proof. vm_compute. reflexivity. Qed.
(** ... and the values the engine returns for the same samples *)
Definition ex_run (sq : bool) (codes : list (list (list Z))) : res lstm_out :=
  do g <- lstm_from_model (le_ins ex_e) (le_out ex_e) sq; do r <- lstm_infer g 2 codes; Ok (fst r).
Definition thousandths (m : list (list Z)) : list (list Z) := map (map (fun c => Qround_even (val (le_out ex_e) c * 1000))) m.
Example ex_engine : match ex_run true [[[100]; [-50]]; [[50]; [-100]]] with Ok (OSeq m) => map thousandths m | _ => [] end
  = [[[3; 244]; [153; -336]]; [[195; 156]; [116; -528]]].
Proof. vm_compute. reflexivity. Qed.
Example ex_engine_last : match ex_run false [[[100]; [-50]]; [[50]; [-100]]] with Ok (OLast m) => thousandths m | _ => [] end
  = [[153; -336]; [116; -528]].
Proof. vm_compute. reflexivity. Qed.
(** the hypotheses of C63 hold for it *)
Lemma qle_dec_true a c : Qle_bool a c = true -> (a <= c)%Q. Proof. apply Qle_bool_iff. Qed.
Example ex_file_ok : lstm_file_ok (ex_l true) q_i32 ex_e.
Proof.
  assert (C : let e := ex_e in
    forallb (fun g => forallb (fun j => (gmin q_i32 <? code (x_bias e g) 0 j) && (code (x_bias e g) 0 j <? gmax q_i32)) [0%nat; 1%nat] &&
      Qle_bool (n_scale (x_kernel e g) * n_scale (x_in e) / (n_scale (le_out e) * n_scale (x_rec e g)) * inject_Z 2) (inject_Z (2 ^ 29))) [0%nat; 1%nat; 2%nat; 3%nat]
    && Qle_bool (n_scale (x_gate e 1)) (inject_Z (2 ^ 28))
    && Qle_bool (n_scale (x_gate e 0) * n_scale (x_gate e 2) / n_scale (x_cell e)) (inject_Z (2 ^ 28))
    && Qle_bool (n_scale (x_gate e 3) * n_scale (x_act e) / n_scale (le_out e)) (inject_Z (2 ^ 28)) = true)
    by (vm_compute; reflexivity).
  cbv zeta in C.
  apply andb_prop in C as [C C5]. apply andb_prop in C as [C C4]. apply andb_prop in C as [C C3]. rewrite forallb_forall in C.
  assert (IN : forall g, (g < 4)%nat -> In g [0%nat; 1%nat; 2%nat; 3%nat]) by (intros g Hg; cbn; lia).
  constructor.
  - intros g j Hg Hj. specialize (C g (IN g Hg)). apply andb_prop in C as [C _]. rewrite forallb_forall in C. cbn in Hj.
    specialize (C j ltac:(cbn; lia)). apply andb_prop in C as [A B]. apply Z.ltb_lt in A, B. split; assumption.
  - intros g Hg. specialize (C g (IN g Hg)). apply andb_prop in C as [_ C]. apply qle_dec_true, C.
  - apply qle_dec_true, C3.
  - apply qle_dec_true, C4.
  - apply qle_dec_true, C5.
  - cbn. lia.
  - cbn. lia.
Qed.
Example ex_in_good : node_good ex_in q_i8 /\ short q_i8.
Proof. split; [constructor; [reflexivity|reflexivity|exists 0; split; [reflexivity|unfold in_dtype; cbn; lia]]|unfold short; cbn; lia]. Qed.
Example ex_stands : Forall2 (stands_for ex_in 1 2 1 0) [[[100]; [-50]]; [[50]; [-100]]] ex_data.
Proof.
  assert (H : forall c d x y, in_dtype q_i8 c -> in_dtype q_i8 d -> (Qabs x <= 1)%Q -> (Qabs y <= 1)%Q ->
    (Qabs (val ex_in c - x) <= 0)%Q -> (Qabs (val ex_in d - y) <= 0)%Q -> stands_for ex_in 1 2 1 0 [[c]; [d]] [[x]; [y]]).
  { intros c d x y Hc Hd Hx Hy Ex Ey. split; [reflexivity|]. split; [reflexivity|].
    intros [|[|t]] Ht; [| |lia]; cbn [nth].
    - split; [reflexivity|]. split; [reflexivity|]. split; [unfold abssum, sumQ; cbn [map fold_right]; lra|].
      split; [intros v [<-|[]]; exact Hc|]. intros [|k] Hk; [exact Ex|lia].
    - split; [reflexivity|]. split; [reflexivity|]. split; [unfold abssum, sumQ; cbn [map fold_right]; lra|].
      split; [intros v [<-|[]]; exact Hd|]. intros [|k] Hk; [exact Ey|lia]. }
  unfold ex_data. constructor; [|constructor; [|constructor]]; apply H; try discriminate; unfold in_dtype; cbn; lia.
Qed.
Example ex_covered sq : forall xs, In xs ex_data -> lstm_covered hfn (ex_l sq) ex_b 2 ex_data xs.
Proof. intros xs Hx. apply C62_calibration_covered; [apply ex_shaped|exact Hx|cbn; lia]. Qed.

(** Sequences longer than the layer is wide: the output of the input gate is calibrated on the first [units] steps only
    (keras_lstm.py:422), so values seen during calibration are not represented. *)
Definition dtype_eqb8 (d : gdtype) : bool := (gmin d =? -128) && (gmax d =? 127) && chars_eqb (grepr d) (str "int8").
Lemma dtype_eqb8_ok d : dtype_eqb8 d = true -> d = q_i8.
Proof.
  destruct d as [a b c]. unfold dtype_eqb8. cbn [gmin gmax grepr]. intros H. apply andb_prop in H as [H C]. apply andb_prop in H as [A B].
  apply Z.eqb_eq in A, B. apply chars_eqb_eq in C. subst. reflexivity.
Qed.
Definition rf_l : klstm := mkkl [] 1 [[1; 0; 0; 0]]%Q [[0; 0; 0; 0]]%Q (Some [0; 0; 0; 0]%Q) true.
Definition rf_data : list (list (list Q)) := [[[-1#1]; [2]]]%Q.
Lemma rf_shaped : lstm_shaped rf_l [0; 0; 0; 0]%Q 2 rf_data.
Proof.
  constructor; try reflexivity; try discriminate; try (cbn; lia).
  - intros r [<-|[]]; reflexivity.
  - intros r [<-|[]]; reflexivity.
  - intros s [<-|[]]; reflexivity.
  - intros s r [<-|[]] [<-|[<-|[]]]; reflexivity.
Qed.
Theorem C62_input_gate_refuted : exists fn l b T data e xs t j, lstm_shaped l b T data /\ klstm_quantize fn ldt_default l ex_in T data = Ok e /\
  In xs data /\ (t < T)%nat /\ (j < kl_units l)%nat /\
  let v := gate_at fn l b xs t 0 j in
  ~ represents (x_gate e 0) v /\ forall c, in_dtype q_i8 c -> (Qabs (val (x_gate e 0) c - v) >= 1#2)%Q.
Proof.
  assert (X : match klstm_quantize hfn ldt_default rf_l ex_in 2 rf_data with
    Ok e => Qeq_bool (n_scale (x_gate e 0)) (1#510) && (zp0 (x_gate e 0) =? -128) && dtype_eqb8 (n_dtype (x_gate e 0)) | Err _ => false end = true)
    by (vm_compute; reflexivity).
  destruct (klstm_quantize hfn ldt_default rf_l ex_in 2 rf_data) as [e|] eqn:E; [|discriminate].
  apply andb_prop in X as [X D]. apply andb_prop in X as [N1 N2]. apply Qeq_bool_iff in N1. apply Z.eqb_eq in N2. apply dtype_eqb8_ok in D.
  exists hfn, rf_l, [0; 0; 0; 0]%Q, 2%nat, rf_data, e, [[-1#1]; [2]]%Q, 1%nat, 0%nat.
  split.
  { exact rf_shaped. }
  split; [exact E|]. split; [now left|]. split; [lia|]. split; [cbn; lia|]. cbv zeta.
  assert (V : gate_at hfn rf_l [0; 0; 0; 0]%Q [[-1#1]; [2]]%Q 1 0 0 == 1) by (vm_compute; reflexivity).
  set (v := gate_at hfn rf_l [0; 0; 0; 0]%Q [[-1#1]; [2]]%Q 1 0 0) in *.
  assert (F : forall c, in_dtype q_i8 c -> (Qabs (val (x_gate e 0) c - v) >= 1#2)%Q).
  { intros c Hc. unfold val. rewrite N2, N1, V.
    assert (B : (inject_Z (c - -128) <= 255)%Q) by (change 255%Q with (inject_Z 255); apply (proj1 (Zle_inj _ _)); unfold in_dtype in Hc; cbn in Hc; lia).
    pose proof (Qle_Qabs (1 - (1#510) * inject_Z (c - -128))) as A. rewrite Qabs_Qminus in A. lra. }
  split; [|exact F].
  unfold represents. intros H.
  assert (I : in_dtype q_i8 (quant1 (n_dtype (x_gate e 0)) (zp0 (x_gate e 0)) (n_scale (x_gate e 0)) v)).
  { rewrite D. apply q_round_range, (short_narrow q_i8), ex_in_good. }
  specialize (F _ I).
  assert (SM : (n_scale (x_gate e 0) * (1#2) <= 1#1020)%Q) by (rewrite N1; discriminate).
  pose proof (Qle_trans _ _ _ (Qle_trans _ _ _ F H) SM) as B. apply B. reflexivity.
Qed.

(** The engine does not subtract the zero point of the hidden state: already on the calibration sample the output is more than 25
    output steps off at the second time step, although the first step is exact to one step. *)
Definition zr_l : klstm := mkkl [] 1 [[0; 0; 1; 0]]%Q [[0; 0; 1; 0]]%Q (Some [0; 0; 0; 0]%Q) true.
Definition zr_data : list (list (list Q)) := [[[1#2]; [1#2]]]%Q.
Lemma zr_shaped : lstm_shaped zr_l [0; 0; 0; 0]%Q 2 zr_data.
Proof.
  constructor; try reflexivity; try discriminate; try (cbn; lia).
  - intros r [<-|[]]; reflexivity.
  - intros r [<-|[]]; reflexivity.
  - intros s [<-|[]]; reflexivity.
  - intros s r [<-|[]] [<-|[<-|[]]]; reflexivity.
Qed.
Theorem C63_hidden_zero_point_refuted : exists fn l b e eng r0 r1 rec, lstm_shaped l b 2 zr_data /\
  klstm_quantize fn ldt_default l ex_in 2 zr_data = Ok e /\ lstm_from_model (le_ins e) (le_out e) true = Ok eng /\
  lstm_infer eng 2 [[[50]; [50]]] = Ok (OSeq [[[r0]; [r1]]], rec) /\
  (Qabs (val (le_out e) r0 - hidden_at fn l b [[1#2]; [1#2]]%Q 0 0) <= n_scale (le_out e))%Q /\
  (Qabs (val (le_out e) r1 - hidden_at fn l b [[1#2]; [1#2]]%Q 1 0) > 25 * n_scale (le_out e))%Q.
Proof.
  assert (X : match klstm_quantize hfn ldt_default zr_l ex_in 2 zr_data with Ok e =>
     match lstm_from_model (le_ins e) (le_out e) true with Ok eng =>
     match lstm_infer eng 2 [[[50]; [50]]] with Ok (OSeq [[[r0]; [r1]]], rec) =>
       Qle_bool (Qabs (val (le_out e) r0 - hidden_at hfn zr_l [0; 0; 0; 0]%Q [[1#2]; [1#2]]%Q 0 0)) (n_scale (le_out e)) &&
       negb (Qle_bool (Qabs (val (le_out e) r1 - hidden_at hfn zr_l [0; 0; 0; 0]%Q [[1#2]; [1#2]]%Q 1 0)) (25 * n_scale (le_out e)))
     | _ => false end | _ => false end | _ => false end = true) by (vm_compute; reflexivity).
  destruct (klstm_quantize hfn ldt_default zr_l ex_in 2 zr_data) as [e|] eqn:E; [|discriminate].
  destruct (lstm_from_model (le_ins e) (le_out e) true) as [eng|] eqn:EG; [|discriminate].
  destruct (lstm_infer eng 2 [[[50]; [50]]]) as [(o & rec)|] eqn:EI; [|discriminate].
  destruct o as [m|m]; [|discriminate].
  destruct m as [|m0 m]; [discriminate X|]. destruct m0 as [|u0 m0]; [discriminate X|]. destruct u0 as [|r0 u0]; [discriminate X|].
  destruct u0; [|discriminate X]. destruct m0 as [|u1 m0]; [discriminate X|]. destruct u1 as [|r1 u1]; [discriminate X|].
  destruct u1; [|discriminate X]. destruct m0; [|discriminate X]. destruct m; [|discriminate X].
  apply andb_prop in X as [X1 X2]. apply negb_true_iff in X2.
  exists hfn, zr_l, [0; 0; 0; 0]%Q, e, eng, r0, r1, rec. split.
  { exact zr_shaped. }
  split; [exact E|]. split; [exact EG|]. split; [exact EI|]. split; [apply qle_dec_true, X1|].
  apply Qnot_le_lt. intros H. apply Qle_bool_iff in H. congruence.
Qed.
