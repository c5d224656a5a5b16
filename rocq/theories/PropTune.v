(** C81: the whole of build() with a loss function: quantize, equalize, round adaptively, write the file. *)
From Verif Require Import Base BaseProofs DtypeModel QuantModel QuantProofs LutModel FcModel FcProofs EngineModel EngineProofs DistModel BuildModel PipeModel PropCore PropFc
  PropRelu PropDist PipeSpec RPipeSpec PipeProofs RPipeProofs NodeModel PropNode PropEq BfsProofs PropBfs AnnealModel PropAnneal CertSpec PropPipe PropRPipe PropCert
  EqModel ParamAnnealModel ExportModel ExportSpec PropExport TuneModel.
From Coq Require Import Lqa Qminmax.
Open Scope Z_scope.
Open Scope list_scope.

(** ** Specification *)
(** two files with the same numbers (the shape fields, which the engine does not read, may differ) *)
Definition same_node (n n' : pnode) : Prop :=
  (pn_scale n == pn_scale n')%Q /\ pn_zp n = pn_zp n' /\ pn_dtype n = pn_dtype n' /\ pn_tensor n = pn_tensor n' /\ pn_lut n = pn_lut n'.
Definition same_op (o o' : jop pbody) : Prop :=
  jo_type o = jo_type o' /\ jo_name o = jo_name o' /\
  Forall2 same_node (pb_in (jo_body o)) (pb_in (jo_body o')) /\ Forall2 same_node (pb_out (jo_body o)) (pb_out (jo_body o')).
Definition same_file (j j' : jnet pbody) : Prop :=
  jt_engine j = jt_engine j' /\ jt_input j = jt_input j' /\ jt_output j = jt_output j' /\ Forall2 same_op (jt_graph j) (jt_graph j').
(** the user's loss: any number computed from the network the file describes *)
Definition reads_network (loss : jnet pbody -> Q) : Prop := forall j j', same_file j j' -> (loss j == loss j')%Q.
Definition fair_run (r : tune_run) : Prop := (2 <= tr_fuel r)%nat /\ forall g t k, fair_draw (tr_eq r g t k).

(** ** Row-major order *)
Lemma flat_unflat : forall shape idx, valid_idx shape idx = true -> (flat_index shape idx < size shape)%nat /\ unflat shape (flat_index shape idx) = idx.
Proof.
  induction shape as [|n s IH]; intros [|i r] H; cbn [valid_idx] in H; try discriminate; [split; [cbn; lia|reflexivity]|].
  apply andb_true_iff in H as [H1 H2]. apply Nat.ltb_lt in H1. destruct (IH r H2) as [A B]. unfold size in *. cbn [flat_index unflat fold_right].
  set (m := fold_right Nat.mul 1%nat s) in *. set (f := flat_index s r) in *. split; [nia|].
  rewrite (Nat.add_comm (i * m) f), Nat.div_add, Nat.mod_add by lia. rewrite Nat.div_small, Nat.mod_small by exact A. now rewrite B.
Qed.
Definition int_at (p : nd Q) : Prop := forall i, valid_idx (nd_shape p) i = true -> nd_get p i = inject_Z (Qtrunc (nd_get p i)).
Lemma nd_pt_get p i : int_at p -> valid_idx (nd_shape p) i = true -> nd_get (nd_of_pt (pt_of_nd p)) i = nd_get p i.
Proof.
  intros H V. cbn [pt_of_nd nd_of_pt nd_get pt_shape pt_flat]. destruct (flat_unflat _ _ V) as [A B]. unfold size in A.
  set (f := fun k => Qtrunc (nd_get p (unflat (nd_shape p) k))).
  rewrite nth_indep with (d' := f 0%nat) by (rewrite map_length, seq_length; exact A).
  rewrite map_nth, seq_nth by exact A. cbn [Nat.add]. unfold f. rewrite B. symmetry. apply H, V.
Qed.
Lemma Qtrunc_inject z : Qtrunc (inject_Z z) = z.
Proof. unfold Qtrunc. destruct (Qle_bool 0 (inject_Z z)); [apply Qfloor_Z|apply Qceiling_Z]. Qed.
Lemma nd_of_pt_int t : int_at (nd_of_pt t).
Proof. intros i _. cbn [nd_of_pt nd_get]. now rewrite Qtrunc_inject. Qed.
(** entries 0 or 1 *)
Definition bit_at (p : nd Q) : Prop := forall i, valid_idx (nd_shape p) i = true -> nd_get p i = 0%Q \/ nd_get p i = 1%Q.
Lemma bit_int p : bit_at p -> int_at p.
Proof. intros H i V. destruct (H i V) as [-> | ->]; reflexivity. Qed.
Lemma bit_unit p : bit_at p -> unit_at p.
Proof. intros H i V. destruct (H i V) as [-> | ->]; split; discriminate. Qed.
Lemma nd_of_pt_bit t : bitwise t -> bit_at (nd_of_pt t).
Proof.
  intros B i _. cbn [nd_of_pt nd_get]. set (k := flat_index _ _). unfold bitwise in B. rewrite Forall_forall in B.
  destruct (Nat.lt_ge_cases k (length (pt_flat t))) as [L|L].
  - destruct (B _ (nth_In (pt_flat t) 0 L)) as [-> | ->]; [left|right]; reflexivity.
  - rewrite nth_overflow by exact L. left. reflexivity.
Qed.
Lemma base_bit t s : bit_at (get_base_rounding t s).
Proof. intros i _. unfold get_base_rounding. cbn [nd_map nd_get]. unfold base_rounding1. destruct (Qlt_le_dec _ _); [right|left]; reflexivity. Qed.
Lemma unflat_valid : forall shape k, (k < size shape)%nat -> valid_idx shape (unflat shape k) = true.
Proof.
  induction shape as [|n s IH]; intros k H; [reflexivity|]. unfold size in *. cbn [unflat valid_idx fold_right] in *.
  set (m := fold_right Nat.mul 1%nat s) in *. assert (m <> 0)%nat by nia. apply andb_true_iff. split.
  - apply Nat.ltb_lt. apply Nat.div_lt_upper_bound; [assumption|]. rewrite Nat.mul_comm. exact H.
  - apply IH. apply Nat.mod_upper_bound. assumption.
Qed.
Lemma pt_of_nd_bits p : bit_at p -> bitwise (pt_of_nd p).
Proof.
  intros B. unfold bitwise. cbn [pt_of_nd pt_flat]. apply Forall_forall. intros x Hx. apply in_map_iff in Hx as (k & <- & Hk). apply in_seq in Hk.
  destruct (B (unflat (nd_shape p) k)) as [-> | ->]; [apply unflat_valid; exact (proj2 Hk)|left; reflexivity|right; reflexivity].
Qed.
Lemma pt_of_nd_proper p : nd_shape p <> [] -> Forall (fun n => (0 < n)%nat) (nd_shape p) -> proper (pt_of_nd p).
Proof. intros A B. split; [exact A|]. split; [exact B|]. cbn [pt_of_nd pt_flat pt_shape]. rewrite map_length, seq_length. reflexivity. Qed.

(** ** The loss of a store *)
Lemma lut_as_json_eq l l' : lut_json l = lut_json l' -> lut_as_json l = lut_as_json l'.
Proof. unfold lut_json, lut_as_json. intros H. now injection H as -> ->. Qed.
Lemma luts_eq (n n' : node) : option_map lut_json (n_lut n) = option_map lut_json (n_lut n') -> option_map lut_as_json (n_lut n) = option_map lut_as_json (n_lut n').
Proof.
  destruct (n_lut n), (n_lut n'); cbn [option_map]; intros H; try discriminate; [|reflexivity]. f_equal. apply lut_as_json_eq. congruence.
Qed.
Lemma same_data n n' : same_export n n' -> same_node (data_json n) (data_json n').
Proof.
  intros (A & B & C & _ & E). unfold same_node, data_json. cbn [pn_scale pn_zp pn_dtype pn_tensor pn_lut].
  split; [exact A|]. split; [exact B|]. split; [now rewrite C|]. split; [reflexivity|]. now apply luts_eq.
Qed.
Lemma nd_rows_eq (a b : nd Z) : nd_shape a = nd_shape b -> (forall i, valid_idx (nd_shape a) i = true -> nd_get a i = nd_get b i) -> nd_rows a = nd_rows b.
Proof.
  intros S0 H. unfold nd_rows. rewrite <- S0. destruct (nd_shape a) as [|x [|y [|]]] eqn:E; try reflexivity.
  - f_equal. apply map_ext_in. intros k Hk. apply in_seq in Hk. apply H. cbn [valid_idx]. rewrite andb_true_r. apply Nat.ltb_lt. lia.
  - f_equal. apply map_ext_in. intros k Hk. apply in_seq in Hk. apply map_ext_in. intros i Hi. apply in_seq in Hi. apply H. cbn [valid_idx].
    rewrite andb_true_r. apply andb_true_iff. split; apply Nat.ltb_lt; lia.
Qed.
Lemma same_weight n n' : same_export n n' -> same_node (weight_json n) (weight_json n').
Proof.
  intros (A & B & C & D & E). unfold same_node, weight_json. cbn [pn_scale pn_zp pn_dtype pn_tensor pn_lut].
  split; [exact A|]. split; [exact B|]. split; [now rewrite C|]. split; [|now apply luts_eq].
  destruct (n_tens n), (n_tens n'); try contradiction; [|reflexivity]. destruct D as [D1 D2]. now apply nd_rows_eq.
Qed.
Lemma same_layers w w' next : same_network next w w' -> forall ls inp k, (inp < next)%nat -> (k + 4 * length ls <= next)%nat ->
  Forall2 same_op (fst (export_layers w inp k ls)) (fst (export_layers w' inp k ls)) /\
  snd (export_layers w inp k ls) = snd (export_layers w' inp k ls) /\ (snd (export_layers w inp k ls) < next)%nat.
Proof.
  intros H. induction ls as [|l ls IH]; intros inp k Hi Hk; cbn [export_layers]; [split; [constructor|]; split; [reflexivity|exact Hi]|].
  cbn [length] in Hk.
  assert (FC : forall d, same_op (mkjop (str "FULLY_CONNECTED") d (mkpb [data_json (w inp); weight_json (w k); weight_json (w (S k))] [data_json (w (S (S k)))]))
      (mkjop (str "FULLY_CONNECTED") d (mkpb [data_json (w' inp); weight_json (w' k); weight_json (w' (S k))] [data_json (w' (S (S k)))]))).
  { intros d. split; [reflexivity|]. split; [reflexivity|]. cbn [jo_body pb_in pb_out]. split.
    - constructor; [apply same_data, H; exact Hi|]. constructor; [apply same_weight, H; lia|]. constructor; [apply same_weight, H; lia|constructor].
    - constructor; [apply same_data, H; lia|constructor]. }
  destruct (mem (upper (kd_act l)) LUT_FUNCTIONS); cbn [fst snd].
  - destruct (IH (S (S (S k))) (S (S (S (S k)))) ltac:(lia) ltac:(lia)) as (A & B & C). split; [|split; [exact B|exact C]].
    constructor; [apply FC|]. constructor; [|exact A]. split; [reflexivity|]. split; [reflexivity|]. cbn [jo_body pb_in pb_out].
    split; (constructor; [apply same_data, H; lia|constructor]).
  - destruct (IH (S (S k)) (S (S (S (S k)))) ltac:(lia) ltac:(lia)) as (A & B & C). split; [|split; [exact B|exact C]]. constructor; [apply FC|exact A].
Qed.
Lemma same_net_file w w' ls : same_network (4 * length ls + 1) w w' -> same_file (export_net w ls) (export_net w' ls).
Proof.
  intros H. unfold same_file, export_net. cbn [jt_graph jt_engine jt_input jt_output]. do 3 (split; [reflexivity|]). destruct (same_layers w w' _ H ls 0 1 ltac:(lia) ltac:(lia)) as (A & B & C).
  constructor.
  - split; [reflexivity|]. split; [reflexivity|]. cbn [jo_body pb_in pb_out]. split; [constructor|]. constructor; [apply same_data, H; lia|constructor].
  - apply Forall2_app; [exact A|]. constructor; [|constructor]. split; [reflexivity|]. split; [reflexivity|]. cbn [jo_body pb_in pb_out].
    split; [|constructor]. constructor; [|constructor]. rewrite <- B. apply same_data, H. exact C.
Qed.
Lemma loss_network loss ls : reads_network loss -> loss_of_network (4 * length ls + 1) (fun w => loss (export_net w ls)).
Proof. intros H w w' S0. apply H. now apply same_net_file. Qed.
Lemma same_export_refl n : same_export n n.
Proof.
  split; [apply Qeq_refl|]. split; [reflexivity|]. split; [reflexivity|]. split; [destruct (n_tens n); [split; [reflexivity|intros; reflexivity]|exact Logic.I]|reflexivity].
Qed.
Lemma same_export_trans a b c : same_export a b -> same_export b c -> same_export a c.
Proof.
  intros (A1 & A2 & A3 & A4 & A5) (B1 & B2 & B3 & B4 & B5). split; [now rewrite A1|]. split; [congruence|]. split; [congruence|]. split; [|congruence].
  destruct (n_tens a), (n_tens b), (n_tens c); try contradiction; [|exact Logic.I]. destruct A4 as [S1 G1], B4 as [S2 G2].
  split; [congruence|]. intros i V. rewrite G1 by exact V. apply G2. rewrite <- S1. exact V.
Qed.

(** ** Positive scales, read off the file of the untuned network *)
Lemma bare_scale n n' : bare n = bare n' -> n_scale n = n_scale n'.
Proof. intros E. exact (f_equal n_scale E). Qed.
Lemma file_fresh : forall ls sps n st inp, describe n ls sps ->
  Forall tuned_ok (fst (export_layers (w_nodes (fold_left add_dense sps st)) inp (w_next st) ls)) -> Forall PropBfs.fresh_spec sps.
Proof.
  induction ls as [|l ls IH]; intros [|sp sps] n st inp D OK; try destruct D; [constructor|].
  set (wF := w_nodes (fold_left add_dense (sp :: sps) st)) in *. set (k := w_next st) in *.
  assert (OLD : forall j, (j < S (S (S (S k))))%nat -> bare (wF j) = bare (w_nodes (add_dense st sp) j)).
  { intros j Hj. apply (fold_dense_old sps (add_dense st sp)). exact Hj. }
  destruct (add_dense_nodes st sp) as (_ & A1 & _ & A3 & A4 & _). fold k in A1, A3, A4. rewrite <- OLD in A1, A3 by lia.
  destruct H as [(qk & fk & (sk & zk & CK) & _ & _) _ (qa & fa & (sa & za & CA) & _) AC].
  assert (E1 : n_scale (wF k) = n_scale (s_kernel sp)) by (apply bare_scale in A1; exact A1).
  assert (E3 : n_scale (wF (S (S k))) = n_scale (s_bias_add sp)).
  { apply bare_scale in A3. rewrite A3. unfold add_node. destruct (s_act sp) as [[? ?]|]; reflexivity. }
  cbn [export_layers] in OK. rewrite lut_functions_table in OK.
  assert (HD : forall g, tuned_ok (mkjop (str "FULLY_CONNECTED") g (mkpb [data_json (wF inp); weight_json (wF k); weight_json (wF (S k))] [data_json (wF (S (S k)))])) ->
      (0 < n_scale (s_kernel sp))%Q /\ (0 < n_scale (s_bias_add sp))%Q).
  { intros g (_ & SN & NU). destruct (NU _ _ _ _ eq_refl) as [P _]. cbn [weight_json pn_scale] in P. rewrite E1 in P. split; [exact P|].
    destruct (SN (data_json (wF (S (S k))))) as [P2 _]; [now left|]. cbn [data_json pn_scale] in P2. rewrite E3 in P2. exact P2. }
  destruct (is_table l) eqn:T; cbn [fst] in OK.
  - assert (O1 := Forall_inv OK). assert (OK1 := Forall_inv_tail OK). assert (O2 := Forall_inv OK1). assert (OK2 := Forall_inv_tail OK1).
    destruct (HD _ O1) as [P1 P2]. constructor; [|exact (IH sps _ (add_dense st sp) _ H0 OK2)].
    split; [split; [rewrite CK; reflexivity|exact P1]|]. split; [split; [rewrite CA; reflexivity|exact P2]|].
    destruct (s_act sp) as [[fn on]|] eqn:SA; [|exact Logic.I]. destruct AC as (_ & _ & (fo & so & zo & CO)).
    split; [rewrite CO; reflexivity|]. specialize (A4 _ _ eq_refl). rewrite <- OLD in A4 by lia. apply bare_scale in A4.
    destruct O2 as (_ & SN & _). destruct (SN (data_json (wF (S (S (S k)))))) as [P3 _]; [now left|]. cbn [data_json pn_scale] in P3. rewrite A4 in P3. exact P3.
  - assert (O1 := Forall_inv OK). assert (OK1 := Forall_inv_tail OK).
    destruct (HD _ O1) as [P1 P2]. constructor; [|exact (IH sps _ (add_dense st sp) _ H0 OK1)].
    split; [split; [rewrite CK; reflexivity|exact P1]|]. split; [split; [rewrite CA; reflexivity|exact P2]|].
    destruct (s_act sp) as [[fn on]|] eqn:SA; [destruct AC as (AC & _); congruence|exact Logic.I].
Qed.
Lemma describe_length : forall ls sps n, describe n ls sps -> length sps = length ls.
Proof. induction ls as [|l ls IH]; intros [|sp sps] n D; try destruct D; [reflexivity|]. cbn [length]. f_equal. now apply (IH _ (kd_units l)). Qed.
Lemma describe_acts : forall ls sps n, describe n ls sps ->
  map (fun l => mem (upper (kd_act l)) LUT_FUNCTIONS) ls = map (fun sp => match s_act sp with Some _ => true | None => false end) sps.
Proof.
  induction ls as [|l ls IH]; intros [|sp sps] n D; try destruct D; [reflexivity|]. cbn [map]. f_equal; [|now apply (IH _ (kd_units l))].
  rewrite lut_functions_table. destruct H as [_ _ _ AC]. destruct (s_act sp) as [[? ?]|]; [now destruct AC|exact AC].
Qed.

(** ** Binary policies *)
Definition int_pol (n : node) : Prop :=
  match n_tens n with Some t => bit_at (t_policy t) /\ nd_shape (t_policy t) = nd_shape (t_fp t) | None => True end /\
  match n_lut n with Some l => bit_at (l_policy l) | None => True end.
Lemma int_params n s z : int_pol n -> int_pol (set_params n s z).
Proof. exact (fun H => H). Qed.
Lemma int_requantize n : int_pol n -> int_pol (requantize n).
Proof.
  intros [A B]. unfold int_pol, requantize. cbn [set_lut set_tens n_tens n_lut]. destruct (n_tens n), (n_lut n); cbn [option_map]; split; assumption.
Qed.
Lemma int_with_tensor s z q fp : int_pol (NodeModel.with_tensor (node_new s z q) fp).
Proof. split; [|exact Logic.I]. cbn. split; [apply base_bit|reflexivity]. Qed.
Lemma int_with_lut n f os oz : int_pol n -> int_pol (with_lut n f os oz).
Proof. intros [A _]. split; [exact A|]. cbn. apply base_bit. Qed.
Lemma bare_int n : int_pol (bare n) <-> int_pol n.
Proof. split; exact (fun H => H). Qed.
Lemma build_int : forall ls sps n st, describe n ls sps -> (forall j, int_pol (w_nodes st j)) -> forall j, int_pol (w_nodes (fold_left add_dense sps st) j).
Proof.
  induction ls as [|l ls IH]; intros [|sp sps] n st D W; try destruct D; [exact W|]. cbn [fold_left]. eapply IH; [eassumption|].
  destruct H as [(qk & fk & (sk & zk & CK) & _ & _) _ (qa & fa & (sa & za & CA) & _) AC]. intros j.
  destruct (add_dense_nodes st sp) as (A0 & A1 & A2 & A3 & A4 & A5 & A6). set (k := w_next st) in *.
  apply (proj1 (bare_int _)).
  destruct (Nat.lt_ge_cases j k) as [H|H]; [rewrite A0 by exact H; apply bare_int, W|].
  destruct (Nat.eq_dec j k) as [->|N1]; [rewrite A1, CK; apply bare_int, int_with_tensor|].
  destruct (Nat.eq_dec j (S k)) as [->|N2]; [rewrite A2; apply int_with_tensor|].
  destruct (Nat.eq_dec j (S (S k))) as [->|N3].
  { rewrite A3. apply bare_int. unfold add_node. assert (X : int_pol (set_hooks (s_bias_add sp) [])) by (rewrite CA; apply (int_with_tensor sa za qa fa)).
    destruct (s_act sp) as [[? ?]|]; [apply int_with_lut, X|exact X]. }
  destruct (Nat.eq_dec j (S (S (S k)))) as [->|N4].
  { destruct (s_act sp) as [[fn on]|] eqn:SA; [|rewrite A6 by reflexivity; apply bare_int, W].
    rewrite (A4 _ _ eq_refl). destruct AC as (_ & _ & (fo & so & zo & CO)). rewrite CO. apply bare_int, int_with_tensor. }
  rewrite A5 by lia. apply bare_int, W.
Qed.

(** ** A property of all nodes kept by updates is kept by the equalizer *)
Section All.
Context (P : node -> Prop) (HS : forall n s z, P n -> P (set_params n s z)) (HR : forall n, P n -> P (requantize n)).
Lemma all_update fuel w i s z rq w' : (forall j, P (w j)) -> update fuel w i s z rq = Ok w' -> forall j, P (w' j).
Proof. intros W U. apply (update_all fuel P w i s z rq w'); auto. Qed.
Lemma all_move fuel : forall ts w ds w', (forall j, P (w j)) -> move fuel w ts ds = Ok w' -> forall j, P (w' j).
Proof.
  induction ts as [|i ts IH]; intros w ds w' K E; cbn [move] in E; [assert (w' = w) by congruence; now subst|].
  unfold move_one in E. destruct (eq_scale _ _ _) as [s|]; [|discriminate]. cbn [rbind] in E.
  destruct (update fuel w i s _ true) as [w1|] eqn:U; [|discriminate]. cbn [rbind] in E. exact (IH _ _ _ (all_update _ _ _ _ _ _ _ K U) E).
Qed.
Lemma all_copy fuel rq : forall to from w w', (forall j, P (w j)) -> copy fuel w to from rq = Ok w' -> forall j, P (w' j).
Proof.
  induction to as [|t to IH]; intros [|f from] w w' K E; cbn [copy] in E; try (assert (w' = w) by congruence; now subst).
  destruct (update fuel w t _ _ rq) as [w1|] eqn:U; [|discriminate]. cbn [rbind] in E. exact (IH _ _ _ (all_update _ _ _ _ _ _ _ K U) E).
Qed.
Lemma all_deepcopy : forall ts base w, (forall j, P (w j)) -> forall j, P (deepcopy w base ts j).
Proof.
  induction ts as [|i ts IH]; intros base w K; cbn [deepcopy]; [exact K|]. apply IH. intros j.
  destruct (upd_cases w base j (w i)) as [[_ ->]|[_ ->]]; apply K.
Qed.
Lemma all_bfs_loop fuel cost ts cs max : forall turns ds st st', (forall j, P (b_w st j)) ->
  bfs_loop fuel cost ts cs max turns ds st = Ok (Some st') -> forall j, P (b_w st' j).
Proof.
  induction turns as [|t IH]; intros ds st st' K E; cbn [bfs_loop] in E; [discriminate|].
  unfold bfs_step in E. destruct (move fuel (b_w st) ts (ds 0%nat)) as [w1|] eqn:M; [|discriminate]. cbn [rbind] in E.
  pose proof (all_move _ _ _ _ _ K M) as K1.
  assert (X : exists st1, (forall j, P (b_w st1 j)) /\
     (if (max <? b_retries st1)%nat then Ok (Some st1) else bfs_loop fuel cost ts cs max t (fun k => ds (S k)) st1) = Ok (Some st')).
  { destruct (EqModel.Qltb (cost w1) (b_best st)).
    - destruct (copy fuel w1 cs ts false) as [w2|] eqn:CP; [|discriminate]. cbn [rbind] in E. exists (mkbfs w2 (cost w1) 0 (cost w1 :: b_seen st)). split; [exact (all_copy _ _ _ _ _ _ K1 CP)|exact E].
    - destruct (copy fuel w1 ts cs false) as [w2|] eqn:CP; [|discriminate]. cbn [rbind] in E. exists (mkbfs w2 (b_best st) (S (b_retries st)) (cost w1 :: b_seen st)). split; [exact (all_copy _ _ _ _ _ _ K1 CP)|exact E]. }
  clear E. destruct X as (st1 & K2 & E). destruct (max <? b_retries st1)%nat; [assert (st' = st1) by congruence; now subst|]. exact (IH _ _ _ K2 E).
Qed.
Lemma all_bfs fuel cost next w ts max turns ds w' best seen : (forall j, P (w j)) ->
  bfs_optimize fuel cost w next ts max turns ds = Ok (Some (w', best, seen)) -> forall j, P (w' j).
Proof.
  intros K E. unfold bfs_optimize in E. destruct (bfs_loop _ _ _ _ _ _ _ _) as [[st|]|] eqn:L; cbn [rbind] in E; try discriminate.
  destruct (copy fuel (b_w st) ts (seq next (length ts)) true) as [w2|] eqn:CP; [|discriminate]. cbn [rbind] in E.
  assert (w' = w2) by congruence. subst w2. refine (all_copy _ _ _ _ _ _ _ CP).
  refine (all_bfs_loop _ _ _ _ _ _ _ _ _ _ L). cbn [bfs_init b_w]. apply all_deepcopy, K.
Qed.
Lemma all_equalize fuel cost next max turns : forall gs w ds w', (forall j, P (w j)) ->
  equalize fuel cost next max turns w gs ds = Ok (Some w') -> forall j, P (w' j).
Proof.
  induction gs as [|g gs IH]; intros w ds w' K E; cbn [equalize] in E; [assert (w' = w) by congruence; now subst|].
  destruct (bfs_optimize fuel cost w next g max turns (ds 0%nat)) as [[[[w1 c] sn]|]|] eqn:B; cbn [rbind] in E; try discriminate.
  exact (IH _ _ _ (all_bfs _ _ _ _ _ _ _ _ _ _ _ K B) E).
Qed.
End All.
Lemma equalize_session w0 fuel cost next max turns : forall gs w ds w', session w0 next w ->
  equalize fuel cost next max turns w gs ds = Ok (Some w') -> session w0 next w'.
Proof.
  induction gs as [|g gs IH]; intros w ds w' K E; cbn [equalize] in E; [assert (w' = w) by congruence; now subst|].
  destruct (bfs_optimize fuel cost w next g max turns (ds 0%nat)) as [[[[w1 c] sn]|]|] eqn:B; cbn [rbind] in E; try discriminate.
  exact (IH _ _ _ (ss_bfs _ _ _ _ _ _ _ _ _ _ _ _ K B) E).
Qed.

(** ** Assigning policies *)
Record roundable (next : nat) (w : world) : Prop := {
  ro_wf : forall j, wf (w j);
  ro_int : forall j, int_pol (w j);
  ro_step : forall j, (j < next)%nat -> in_step (w j) }.
(** a policy of the right shape for its target *)
Definition fitting (w : world) (t : target) (p : ptens) : Prop :=
  match t with
  | TNode i => exists x, n_tens (w i) = Some x /\ pt_shape p = nd_shape (t_fp x)
  | TLut i => n_lut (w i) <> None /\ pt_shape p = [code_count (n_q (w i))]
  end /\ bitwise p.
Lemma fitting_ok w t p : fitting w t p -> target_ok w t p.
Proof. intros [H _]. destruct t; [exact H|exact (proj1 H)]. Qed.
Lemma fitting_frame w w' t p : (forall j, same_but_policy (w j) (w' j)) -> fitting w t p -> fitting w' t p.
Proof.
  intros F H. pose proof (target_ok_frame w w' t p F (fitting_ok _ _ _ H)) as X. destruct H as [H B]. split; [|exact B]. destruct t as [i|i]; [exact X|]. split; [exact X|].
  destruct (F i) as (A & _). assert (n_q (w' i) = n_q (w i)) as -> by congruence. apply H.
Qed.
Lemma set_target_session w0 next w t p w' : session w0 next w -> fitting w t p -> set_target w t p = Ok w' -> session w0 next w'.
Proof.
  intros SS F E. destruct t as [i|i]; cbn [set_target] in E.
  - destruct (set_policy (w i) (nd_of_pt p)) as [n|] eqn:E1; [|discriminate]. cbn [rbind] in E.
    match type of E with Ok ?m = _ => assert (w' = m) by congruence end. subst w'.
    assert (X := ss_op w0 next w 0 (OPolicy i (nd_of_pt p)) SS Logic.I). cbn [exec] in X. rewrite E1 in X. exact X.
  - destruct (n_lut (w i)) as [l|] eqn:L; [|discriminate]. match type of E with Ok ?m = _ => assert (w' = m) by congruence end. subst w'.
    assert (X := ss_op w0 next w 0 (OLutPolicy i (nd_of_pt p)) SS (proj2 (proj1 F))). cbn [exec] in X. rewrite L in X. exact X.
Qed.
Lemma set_target_roundable next w t p w' : roundable next w -> fitting w t p -> set_target w t p = Ok w' -> roundable next w'.
Proof.
  intros [W I0 ST] F E.
  assert (WF : forall j, wf (w' j)).
  { assert (SS := set_target_session w next w t p w' (ss_start _ _) F E). exact (proj1 (session_kept _ _ _ W SS)). }
  destruct t as [i|i]; cbn [set_target] in E.
  - destruct (set_policy (w i) (nd_of_pt p)) as [n|] eqn:E1; [|discriminate]. cbn [rbind] in E.
    match type of E with Ok ?m = _ => assert (w' = m) by congruence end. subst w'. split; [exact WF| |].
    + intros j. destruct (upd_cases w i j n) as [[_ ->]|[_ ->]]; [|apply I0].
      unfold set_policy in E1. destruct (n_tens (w i)) as [x|] eqn:T; [|discriminate]. destruct (shape_eqb _ _) eqn:SE; [|discriminate]. apply shape_eqb_eq in SE.
      match type of E1 with Ok ?m = _ => assert (n = m) by congruence end. subst n. split; [|exact (proj2 (I0 i))].
      cbn [set_tens n_tens t_policy t_fp]. split; [apply nd_of_pt_bit, F|exact SE].
    + intros j Hj. destruct (upd_cases w i j n) as [[_ ->]|[_ ->]]; [|apply ST, Hj]. exact (proj2 (set_policy_ok _ _ _ (wf_good _ (W i)) E1)).
  - destruct (n_lut (w i)) as [l|] eqn:L; [|discriminate]. match type of E with Ok ?m = _ => assert (w' = m) by congruence end. subst w'. split; [exact WF| |].
    + intros j. match goal with |- int_pol (upd _ _ ?n _) => destruct (upd_cases w i j n) as [[_ ->]|[_ ->]] end; [|apply I0].
      split; [exact (proj1 (I0 i))|]. cbn [set_lut n_lut lut_set_policy l_policy]. apply nd_of_pt_bit, F.
    + intros j Hj. match goal with |- in_step (upd _ _ ?n _) => destruct (upd_cases w i j n) as [[-> ->]|[_ ->]] end; exact (ST _ Hj).
Qed.
Lemma set_targets_keep w0 next : forall ts ps w w', session w0 next w -> roundable next w -> Forall2 (fitting w) ts ps -> set_targets w ts ps = Ok w' ->
  session w0 next w' /\ roundable next w'.
Proof.
  induction ts as [|t ts IH]; intros ps w w' SS R F E; inversion F as [|? p ? ps' F1 F2]; subst; cbn [set_targets] in E;
    [assert (w' = w) by congruence; subst; now split|].
  destruct (set_target w t p) as [w1|] eqn:E1; [|discriminate]. cbn [rbind] in E.
  apply (IH ps' w1); [exact (set_target_session _ _ _ _ _ _ SS F1 E1)|exact (set_target_roundable _ _ _ _ _ R F1 E1)| |exact E].
  eapply Forall2_weaken; [|exact F2]. intros a b. apply fitting_frame. exact (set_target_frame _ _ _ _ E1).
Qed.
(** assigning a target its own policy shows in no file *)
Lemma own_target next w t w' : roundable next w -> (match t with TNode i | TLut i => (i < next)%nat end) ->
  set_target w t (policy_of w t) = Ok w' -> same_network next w w'.
Proof.
  intros [W I0 ST] L E j Hj. destruct t as [i|i]; [|exact (C37_lut_rounding_has_no_effect _ _ _ _ E j)].
  cbn [set_target policy_of] in E. unfold set_policy in E. destruct (n_tens (w i)) as [x|] eqn:T; [|discriminate].
  destruct (shape_eqb _ _) eqn:SE; [|discriminate]. apply shape_eqb_eq in SE. cbn [rbind] in E.
  match type of E with Ok ?m = _ => assert (w' = m) by congruence end. subst w'.
  match goal with |- same_export _ (upd _ _ ?n _) => destruct (upd_cases w i j n) as [[-> ->]|[_ ->]] end; [|apply same_export_refl].
  split; [reflexivity|]. split; [reflexivity|]. split; [reflexivity|]. split; [|reflexivity].
  rewrite T. cbn [set_tens n_tens t_codes]. assert (IS := ST i L). unfold in_step in IS. rewrite T in IS. destruct IS as [IS1 IS2].
  destruct (I0 i) as [IP _]. rewrite T in IP. destruct IP as [IP PS].
  set (p := pt_of_nd (t_policy x)) in *.
  assert (WI : within_int32 (n_q (w i))) by exact (proj1 (wf_good _ (W i))).
  destruct (quantize_in_step (n_q (w i)) (t_fp x) (n_zp (w i)) (n_scale (w i)) (nd_of_pt p) WI SE) as [Q1 Q2].
  split; [rewrite IS1; symmetry; exact Q1|]. intros k V. rewrite IS1 in V. rewrite (Q2 k V), (IS2 k V). unfold p. rewrite nd_pt_get; [reflexivity|exact (bit_int _ IP)|].
  rewrite PS. exact V.
Qed.
Lemma policy_part w w' t : part t w = part t w' -> policy_of w t = policy_of w' t.
Proof. destruct t as [i|i]; cbn [part policy_of]; intros E; [assert (n_tens (w i) = n_tens (w' i)) as -> by congruence|assert (n_lut (w i) = n_lut (w' i)) as -> by congruence]; reflexivity. Qed.
Definition target_in (next : nat) (t : target) : Prop := match t with TNode i | TLut i => (i < next)%nat end.
Lemma same_network_trans next a b c : same_network next a b -> same_network next b c -> same_network next a c.
Proof. intros A B j Hj. eapply same_export_trans; [apply A, Hj|apply B, Hj]. Qed.
Lemma own_targets next : forall ts w w', roundable next w -> NoDup ts -> Forall (target_in next) ts -> Forall2 (fitting w) ts (map (policy_of w) ts) ->
  set_targets w ts (map (policy_of w) ts) = Ok w' -> same_network next w w'.
Proof.
  induction ts as [|t ts IH]; intros w w' R ND TI F E; cbn [map set_targets] in E.
  { assert (w' = w) by congruence. subst. intros j _. apply same_export_refl. }
  destruct (set_target w t (policy_of w t)) as [w1|] eqn:E1; [|discriminate]. cbn [rbind] in E.
  cbn [map] in F. inversion F as [|? ? ? ? F1 F2]; subst. inversion ND as [|? ? NI ND']; subst.
  assert (EQ : map (policy_of w) ts = map (policy_of w1) ts).
  { apply map_ext_in. intros u Hu. apply policy_part. symmetry. apply (set_target_other _ _ _ _ _ E1). intros ->. contradiction. }
  rewrite EQ in E. apply (same_network_trans _ _ w1).
  - apply (own_target _ _ t); [exact R|exact (Forall_inv TI)|exact E1].
  - apply (IH w1 w'); [exact (set_target_roundable _ _ _ _ _ R F1 E1)|exact ND'|exact (Forall_inv_tail TI)| |exact E].
    rewrite <- EQ. eapply PropAnneal.Forall2_weaken; [|exact F2]. intros a b. apply fitting_frame. exact (set_target_frame _ _ _ _ E1).
Qed.

(** ** The annealer *)
Lemma frame_refl s : Forall proper s -> Forall bitwise s -> same_frame s s.
Proof. intros P B. apply Forall2_diag. apply Forall_forall. intros t I0. rewrite Forall_forall in P, B. auto. Qed.
Lemma reach_same s s' : Forall proper s -> Forall bitwise s -> reach s s' -> same_frame s s'.
Proof.
  intros P B (n & M). assert (X := C36_any_number_of_moves n s s' P M). clear M P. revert B. induction X as [|t t' s s' H X IH]; intros B; constructor.
  - destruct H as (A1 & A2 & A3 & A4 & _). split; [exact A2|]. split; [exact A3|]. split; [exact A1|]. exact (A4 (Forall_inv B)).
  - apply IH. exact (Forall_inv_tail B).
Qed.
Lemma lib_loop_total energy s0 : forall steps rs acc l, same_frame s0 (li_state l) -> same_frame s0 (li_prev l) -> same_frame s0 (li_best l) ->
  exists l', lib_loop energy steps rs acc l = Ok l' /\ same_frame s0 (li_best l').
Proof.
  induction steps as [|n IH]; intros rs acc l A B C; cbn [lib_loop]; [eauto|]. unfold lib_step.
  destruct (same_frame_move _ _ (rs 0%nat) A) as (s2 & E & F). rewrite E. cbn [rbind].
  destruct (AnnealModel.Qltb (li_prevE l) (energy s2) && negb (acc 0%nat))%bool; [apply IH; cbn; assumption|].
  destruct (AnnealModel.Qltb (energy s2) (li_bestE l)); apply IH; cbn; assumption.
Qed.
Lemma minima_loop_total energy max s0 : forall turns rs m, same_frame s0 (m_state m) -> same_frame s0 (m_best m) ->
  exists r, minima_loop energy max turns rs m = Ok r.
Proof.
  induction turns as [|t IH]; intros rs m A B; cbn [minima_loop]; [eauto|]. unfold minima_step.
  destruct (same_frame_move _ _ (rs 0%nat) A) as (s2 & E & F). rewrite E. cbn [rbind].
  match goal with |- exists r, (if (_ <? m_stuck ?m1)%nat then _ else _) = _ => assert (X : same_frame s0 (m_state m1) /\ same_frame s0 (m_best m1)) end.
  { destruct (AnnealModel.Qltb (energy s2) (m_energy m)); split; assumption. }
  match goal with |- exists r, (if ?b then _ else _) = _ => destruct b end; [eauto|]. apply IH; apply X.
Qed.
Definition round_bound (max : nat) (s : pstate) : nat := (length (all_states s) * (max + 1) + (max + 1))%nat.
Lemma anneal_run energy steps max turns rs rs' acc s0 : Forall proper s0 -> Forall bitwise s0 ->
  exists r, anneal energy steps max turns rs rs' acc s0 = Ok r /\
    (r = None -> (turns < round_bound max s0)%nat) /\
    forall b e, r = Some (b, e) -> reach s0 b /\ ((energy b <= energy s0)%Q \/ exists s, reach s0 s /\ (energy s == 0)%Q /\ (energy s <= energy s0)%Q).
Proof.
  intros P B. assert (F0 := frame_refl s0 P B). unfold anneal, lib_anneal, to_minima.
  destruct (lib_loop_total energy s0 steps rs acc (mklib s0 s0 (energy s0) s0 (energy s0)) F0 F0 F0) as (l & EL & FL). rewrite EL. cbn [rbind fst snd].
  destruct (lib_loop_inv energy s0 steps rs acc _ l EL (reach_refl _) (reach_refl _) (reach_refl _) eq_refl) as (R1 & E1 & LE). cbn [li_bestE] in LE.
  set (e0 := if Qeq_bool (li_bestE l) 0 then maxsize else li_bestE l).
  destruct (minima_loop_total energy max s0 turns rs' (mkmin (li_best l) (li_best l) e0 0) FL FL) as (r & ER). rewrite ER. exists r. split; [reflexivity|]. split.
  - intros ->. destruct (Nat.lt_ge_cases turns (round_bound max s0)) as [H|H]; [exact H|]. exfalso. unfold round_bound in H.
    destruct (minima_loop_stops energy max (all_states s0) (same_frame s0)) with (turns := turns) (rs := rs') (m := mkmin (li_best l) (li_best l) e0 0) as (b & e & X);
      cbn [m_state m_best m_stuck m_energy]; try assumption.
    + intros s rs2 Hs. now apply same_frame_move.
    + intros s. apply all_states_in.
    + lia.
    + assert (X : (length (filter (fun s => AnnealModel.Qltb (energy s) e0) (all_states s0)) <= length (all_states s0))%nat) by (generalize (all_states s0) as k; induction k as [|x k IHk]; cbn [filter]; [lia|destruct (AnnealModel.Qltb (energy x) e0); cbn; lia]). nia.
    + congruence.
  - intros b e ->. destruct (C37_descent energy max turns rs' (li_best l) e0 b e ER) as (A & _ & _ & R2).
    assert (RB : reach s0 b) by (eapply reach_trans; eauto). split; [exact RB|].
    unfold e0 in A. destruct (Qeq_bool (li_bestE l) 0) eqn:Z0.
    + apply Qeq_bool_iff in Z0. right. exists (li_best l). split; [exact R1|]. rewrite <- E1. split; [exact Z0|exact LE].
    + left. destruct A as [(-> & ->)|(-> & L)]; [rewrite <- E1; exact LE|lra].
Qed.

(** ** AdaRound of one layer *)
Definition cheap (w0 : world) (next : nat) (cost : world -> Q) (c : Q) : Prop := exists w, session w0 next w /\ (cost w == 0)%Q /\ (cost w <= c)%Q.
Lemma cheap_le w0 next cost c c' : (c <= c')%Q -> cheap w0 next cost c -> cheap w0 next cost c'.
Proof. intros H (w & A & B & C). exists w. split; [exact A|]. split; [exact B|]. lra. Qed.
Lemma fitting_reach w ts s s' : Forall2 (fitting w) ts s -> same_frame s s' -> Forall2 (fitting w) ts s'.
Proof.
  intros F. revert s'. induction F as [|t p ts s H F IH]; intros s' G; inversion G as [|? p' ? ps' (G1 & G2 & G3 & G4) G5]; subst; constructor; auto.
  destruct H as [H B]. split; [|exact G4]. destruct t as [i|i]; rewrite G1; exact H.
Qed.
Lemma ada_round_run w0 next cost steps max turns d w ts : loss_of_network next cost -> session w0 next w -> roundable next w ->
  NoDup ts -> Forall (target_in next) ts -> Forall2 (fitting w) ts (map (policy_of w) ts) -> Forall proper (map (policy_of w) ts) ->
  exists r, ada_round cost steps max turns d w ts = Ok r /\
    (r = None -> (turns < round_bound max (map (policy_of w) ts))%nat) /\
    forall w', r = Some w' -> session w0 next w' /\ roundable next w' /\ ((cost w' <= cost w)%Q \/ cheap w0 next cost (cost w)) /\
      exists b, Forall2 (fitting w) ts b /\ set_targets w ts b = Ok w'.
Proof.
  intros LO SS R ND TI F P. set (s0 := map (policy_of w) ts) in *.
  assert (B : Forall bitwise s0) by (eapply Forall2_right; [|exact F]; intros a b H; apply H).
  unfold ada_round. fold s0. destruct (anneal_run (ada_energy w ts cost) steps max turns (ad_lib d) (ad_desc d) (ad_acc d) s0 P B) as (r & E & N & X).
  rewrite E. cbn [rbind].
  assert (ST : forall s, reach s0 s -> exists w1, set_targets w ts s = Ok w1 /\ session w0 next w1 /\ roundable next w1).
  { intros s RS. assert (FS := fitting_reach _ _ _ _ F (reach_same _ _ P B RS)).
    destruct (set_targets_total ts s w) as (w1 & E1); [eapply PropAnneal.Forall2_weaken; [|exact FS]; apply fitting_ok|]. exists w1. split; [exact E1|].
    exact (set_targets_keep _ _ _ _ _ _ SS R FS E1). }
  destruct r as [[b e]|]; [|exists None; split; [reflexivity|]; split; [intros _; exact (N eq_refl)|discriminate]].
  destruct (X b e eq_refl) as [RB LE]. destruct (ST b RB) as (w1 & E1 & S1 & R1). rewrite E1. cbn [rbind]. exists (Some w1). split; [reflexivity|].
  split; [discriminate|]. intros w' EW. assert (w' = w1) by congruence. subst w'. clear EW. split; [exact S1|]. split; [exact R1|]. split.
  2:{ exists b. split; [exact (fitting_reach _ _ _ _ F (reach_same _ _ P B RB))|exact E1]. }
  destruct LE as [LE|(s & RS & Z0 & LE)].
  - left. unfold ada_energy in LE. rewrite E1 in LE. destruct (ST s0 (reach_refl _)) as (wi & EI & _). rewrite EI in LE.
    assert (SN := own_targets next ts w wi R ND TI F EI). rewrite (LO _ _ SN). exact LE.
  - right. destruct (ST s RS) as (w2 & E2 & S2 & _). exists w2. split; [exact S2|]. unfold ada_energy in Z0, LE. rewrite E2 in Z0, LE. split; [exact Z0|].
    destruct (ST s0 (reach_refl _)) as (wi & EI & _). rewrite EI in LE. assert (SN := own_targets next ts w wi R ND TI F EI). rewrite (LO _ _ SN). exact LE.
Qed.
Lemma round_targets_ok p w n l t next : layer_at p w l n (4 * t + 1) -> layer_shaped n l -> roundable next w -> (4 * t + 4 < next)%nat ->
  NoDup (round_targets t l) /\ Forall (target_in next) (round_targets t l) /\
  Forall2 (fitting w) (round_targets t l) (map (policy_of w) (round_targets t l)) /\ Forall proper (map (policy_of w) (round_targets t l)).
Proof.
  intros [(tk & EK & (SK & _) & _) (tb & EB & (SB & _) & _) RA LT] (Hn & Hu & _) [W I0 ST] L.
  assert (N1 : forall i fp, option_map t_fp (n_tens (w i)) = Some fp -> nd_shape fp <> [] -> Forall (fun n => (0 < n)%nat) (nd_shape fp) ->
      fitting w (TNode i) (policy_of w (TNode i)) /\ proper (policy_of w (TNode i))).
  { intros i fp E NE H. destruct (I0 i) as [IP _]. cbn [policy_of]. unfold fitting. destruct (n_tens (w i)) as [x|] eqn:T; [|discriminate]. cbn [option_map] in E.
    assert (EF : t_fp x = fp) by congruence. destruct IP as [IB IS]. split.
    - split; [exists x; split; [reflexivity|exact IS]|now apply pt_of_nd_bits].
    - apply pt_of_nd_proper; rewrite IS, EF; assumption. }
  destruct (N1 (4 * t + 1)%nat tk EK) as [K1 K2]; [rewrite SK; discriminate|rewrite SK; repeat constructor; assumption|].
  replace (S (4 * t + 1)) with (4 * t + 2)%nat in EB by lia.
  destruct (N1 (4 * t + 2)%nat tb EB) as [B1 B2]; [rewrite SB; discriminate|rewrite SB; repeat constructor; assumption|].
  unfold round_targets. rewrite lut_functions_table. destruct (is_table l) eqn:T; cbn [app map].
  - destruct (LT eq_refl) as (_ & LC). replace (S (S (4 * t + 1))) with (4 * t + 3)%nat in * by lia. destruct (lutcore_some _ _ _ _ _ LC) as (lt & EL & _).
    assert (WL := wf_lut _ (W (4 * t + 3)%nat)). rewrite EL in WL. destruct WL as (_ & WS & _).
    assert (C0 : (0 < code_count (n_q (w (4 * t + 3)%nat)))%nat). { destruct RA as [(_ & RA & _) _]. unfold code_count. lia. }
    assert (X : fitting w (TLut (4 * t + 3)) (policy_of w (TLut (4 * t + 3))) /\ proper (policy_of w (TLut (4 * t + 3)))).
    { destruct (I0 (4 * t + 3)%nat) as [_ IL]. unfold fitting. cbn [policy_of]. rewrite EL in *. split.
      - split; [split; [discriminate|exact WS]|now apply pt_of_nd_bits].
      - apply pt_of_nd_proper; rewrite WS; [discriminate|repeat constructor; exact C0]. }
    destruct X as [X1 X2]. split; [|split; [|split]].
    + constructor; [intros [H|[H|[]]]; [|discriminate]; assert (4 * t + 2 = 4 * t + 1)%nat by congruence; lia|]. constructor; [intros [H|[]]; discriminate|]. constructor; [intros []|constructor].
    + repeat constructor; cbn [target_in]; lia.
    + repeat (constructor; [assumption|]). constructor.
    + repeat (constructor; [assumption|]). constructor.
  - split; [|split; [|split]].
    + constructor; [intros [H|[]]; assert (4 * t + 2 = 4 * t + 1)%nat by congruence; lia|]. constructor; [intros []|constructor].
    + repeat constructor; cbn [target_in]; lia.
    + repeat (constructor; [assumption|]). constructor.
    + repeat (constructor; [assumption|]). constructor.
Qed.

(** ** AdaRound of the network *)
Lemma all_states_same : forall s s', Forall2 (fun t t' => pt_shape t = pt_shape t' /\ length (pt_flat t) = length (pt_flat t')) s s' -> all_states s = all_states s'.
Proof. induction 1 as [|t t' s s' [A B] F IH]; [reflexivity|]. cbn [all_states]. rewrite A, B, IH. reflexivity. Qed.
Lemma policy_flat w t : fitting w t (policy_of w t) -> length (pt_flat (policy_of w t)) = size (pt_shape (policy_of w t)).
Proof.
  intros [H _]. destruct t as [i|i]; cbn [policy_of] in *.
  - destruct H as (x & T & _). rewrite T. cbn [pt_of_nd pt_flat pt_shape]. rewrite map_length, seq_length. reflexivity.
  - destruct (n_lut (w i)); [|destruct H; congruence]. cbn [pt_of_nd pt_flat pt_shape]. rewrite map_length, seq_length. reflexivity.
Qed.
Lemma same_states w w' next : forall ts, (forall j, (j < next)%nat -> core (w' j) = core (w j)) -> Forall (target_in next) ts ->
  Forall2 (fitting w) ts (map (policy_of w) ts) -> Forall2 (fitting w') ts (map (policy_of w') ts) -> all_states (map (policy_of w') ts) = all_states (map (policy_of w) ts).
Proof.
  intros ts C TI F F'. apply all_states_same. induction ts as [|t ts IH]; [constructor|]. cbn [map] in *.
  inversion F as [|? ? ? ? F1 F2]; subst. inversion F' as [|? ? ? ? F1' F2']; subst. inversion TI as [|? ? T1 T2]; subst.
  constructor; [|exact (IH T2 F2 F2')].
  assert (X : pt_shape (policy_of w' t) = pt_shape (policy_of w t)).
  { destruct F1 as [H _], F1' as [H' _]. destruct t as [i|i]; cbn [target_in] in T1; specialize (C i T1).
    - destruct H as (x & E & S0), H' as (x' & E' & S0'). rewrite S0, S0'. assert (X := f_equal (fun t => snd (fst t)) C). unfold core in X. cbn [fst snd] in X. rewrite E, E' in X. cbn [option_map] in X. congruence.
    - rewrite (proj2 H), (proj2 H'), (core_q _ _ C). reflexivity. }
  split; [exact X|]. rewrite (policy_flat _ _ F1), (policy_flat _ _ F1'), X. reflexivity.
Qed.
Fixpoint net_bound (max : nat) (w0 : world) (t : nat) (ls : list kdense) : nat :=
  match ls with [] => 0%nat | l :: r => (round_bound max (map (policy_of w0) (round_targets t l)) + net_bound max w0 (S t) r)%nat end.
Lemma laid_at p w next w' l n k : (k + 4 <= next)%nat -> (forall j, (j < next)%nat -> core (w' j) = core (w j)) -> layer_at p w l n k -> layer_at p w' l n k.
Proof. intros H C L. refine (proj1 (laid_kept p w w' [l] n k next _ C (conj L Logic.I))). cbn [length]. lia. Qed.
Lemma ada_net_run p w0 next cost steps max turns ds : loss_of_network next cost -> roundable next w0 ->
  forall ls n t w, laid p w0 n (4 * t + 1) ls -> shaped n ls -> (4 * t + 1 + 4 * length ls <= next)%nat -> session w0 next w -> roundable next w ->
  exists r, ada_net cost steps max turns ds w t ls = Ok r /\ (r = None -> (turns < net_bound max w0 t ls)%nat) /\
    forall w', r = Some w' -> session w0 next w' /\ roundable next w' /\ ((cost w' <= cost w)%Q \/ cheap w0 next cost (cost w)) /\ forall j, same_but_policy (w j) (w' j).
Proof.
  intros LO R0. induction ls as [|l ls IH]; intros n t w LA Sh HL SS R; cbn [ada_net].
  { exists (Some w). split; [reflexivity|]. split; [discriminate|]. intros w' E. assert (w' = w) by congruence. subst w'.
    split; [exact SS|]. split; [exact R|]. split; [left; apply Qle_refl|]. intros j. apply sbp_refl. }
  destruct LA as [L1 L2]. apply shaped_layer in Sh as (SL & SR & Hn). cbn [length] in HL.
  assert (C := proj2 (session_kept _ _ _ (ro_wf _ _ R0) SS)).
  assert (L1' : layer_at p w l n (4 * t + 1)) by (apply (laid_at p w0 next); [lia|exact C|exact L1]).
  destruct (round_targets_ok p w n l t next L1' SL R ltac:(lia)) as (ND & TI & F & P).
  destruct (round_targets_ok p w0 n l t next L1 SL R0 ltac:(lia)) as (_ & _ & F0 & _).
  assert (SB : round_bound max (map (policy_of w) (round_targets t l)) = round_bound max (map (policy_of w0) (round_targets t l))).
  { unfold round_bound. f_equal. f_equal. f_equal. exact (same_states w0 w next _ C TI F0 F). }
  destruct (ada_round_run w0 next cost steps max turns (ds t) w (round_targets t l) LO SS R ND TI F P) as (r & E & N & X). rewrite E. cbn [rbind].
  destruct r as [w1|]; [|exists None; split; [reflexivity|]; split; [intros _; specialize (N eq_refl); cbn [net_bound]; lia|discriminate]].
  destruct (X w1 eq_refl) as (S1 & R1 & C1 & (b & _ & EB)).
  replace (S (S (S (S (4 * t + 1))))) with (4 * S t + 1)%nat in L2 by lia.
  destruct (IH (kd_units l) (S t) w1 L2 SR ltac:(lia) S1 R1) as (r & E2 & N2 & X2). exists r. split; [exact E2|]. split; [intros H; specialize (N2 H); cbn [net_bound]; lia|].
  intros w' EW. destruct (X2 w' EW) as (S2 & R2 & C2 & B2). split; [exact S2|]. split; [exact R2|]. split.
  - destruct C1 as [C1|C1]; [|right; exact C1]. destruct C2 as [C2|C2]; [|right; exact (cheap_le _ _ _ _ _ C1 C2)]. left. eapply Qle_trans; eassumption.
  - intros j. eapply sbp_trans; [exact (set_targets_frame _ _ _ _ EB j)|apply B2].
Qed.

(** ** The whole stage *)
(** nodes as the quantizer creates them for a network, whose untuned file passes the numeric check *)
Record quantized (n : nat) (ls : list kdense) (input : node) (specs : list dense_spec) : Prop := {
  qu_in : (0 < n)%nat;
  qu_shape : shaped n ls;
  qu_input : exists qi fi, created input qi fi /\ readable qi;
  qu_nodes : describe n ls specs;
  qu_file : Forall tuned_ok (jt_graph (export_net (w_nodes (build_net input specs)) ls)) }.
Section Quantized.
Context (n : nat) (ls : list kdense) (input : node) (specs : list dense_spec) (QU : quantized n ls input specs).
Let w0 := w_nodes (build_net input specs).
Let next := (4 * length ls + 1)%nat.
Lemma qu_start : wf input /\ in_step input /\ PropBfs.fresh_node input /\ int_pol input.
Proof.
  destruct QU as [_ _ (qi & fi & (s & z & E) & R) D OK]. rewrite E.
  split; [apply with_tensor_wf; exact (proj1 (proj1 R))|]. split; [exact (proj2 (with_tensor_ok (node_new s z qi) fi (proj1 (proj1 R))))|].
  split; [|apply int_with_tensor]. split; [reflexivity|]. unfold export_net in OK. cbn [jt_graph] in OK. assert (O1 := Forall_inv OK).
  destruct O1 as (_ & SN & _). destruct (SN (data_json (w_nodes (build_net input specs) 0%nat))) as [P _]; [now left|].
  assert (X : data_json (w_nodes (build_net input specs) 0%nat) = data_json input).
  { apply data_bare. unfold build_net. rewrite fold_dense_old by (cbn; lia). reflexivity. }
  rewrite X in P. rewrite E in P. exact P.
Qed.
Lemma qu_specs : Forall spec_ok specs /\ Forall PropBfs.fresh_spec specs.
Proof.
  destruct QU as [_ _ _ D OK]. split; [exact (describe_ok ls specs n D)|].
  unfold export_net in OK. cbn [jt_graph] in OK. apply Forall_inv_tail, Forall_app_inv in OK as [OK _].
  exact (file_fresh ls specs n (start_net input) 0%nat D OK).
Qed.
Lemma qu_next : w_next (build_net input specs) = next.
Proof.
  destruct qu_start as (G & ST & FI & _). destruct qu_specs as [F FS].
  destruct (C35_dense_networks_settled input specs (wf_good _ G) ST F FI FS) as (BN & _). rewrite BN. unfold next. now rewrite (describe_length ls specs n (qu_nodes _ _ _ _ QU)).
Qed.
Lemma qu_settled : settled next (w_layers (build_net input specs)) w0.
Proof.
  destruct qu_start as (G & ST & FI & _). destruct qu_specs as [F FS].
  destruct (C35_dense_networks_settled input specs (wf_good _ G) ST F FI FS) as (_ & SE & _). rewrite qu_next in SE. exact SE.
Qed.
Lemma qu_roundable : roundable next w0.
Proof.
  destruct qu_start as (G & _ & _ & IP). split.
  - apply (build_wf ls specs n); [exact (qu_nodes _ _ _ _ QU)|]. intros j. apply bare_wf. exact G.
  - apply (build_int ls specs n); [exact (qu_nodes _ _ _ _ QU)|]. intros j. exact IP.
  - apply (se_step _ _ _ qu_settled).
Qed.
Lemma qu_laid : laid (fun j => pars (w0 j)) w0 n 1 ls.
Proof. exact (build_laid ls specs n (start_net input) (qu_nodes _ _ _ _ QU)). Qed.

Lemma tune_run_ok loss c r : reads_network loss -> fair_run r ->
  exists o, tune_net loss c r w0 ls = Ok o /\
    forall w', o = Some w' -> session w0 next w' /\ roundable next w' /\
      ((loss (export_net w' ls) <= loss (export_net w0 ls))%Q \/ exists w, session w0 next w /\ (loss (export_net w ls) == 0)%Q /\ (loss (export_net w ls) <= loss (export_net w0 ls))%Q).
Proof.
  intros RN [FU FD]. unfold tune_net. set (cost := fun v => loss (export_net v ls)). fold next.
  assert (LO : loss_of_network next cost) by exact (loss_network loss ls RN).
  assert (EQ : exists o, match tc_eq c with
      | Some max => equalize (tr_fuel r) cost next max (tr_turns r) w0 (full_groups (map (fun l => mem (upper (kd_act l)) LUT_FUNCTIONS) ls)) (tr_eq r)
      | None => Ok (Some w0) end = Ok o /\ forall w1, o = Some w1 -> session w0 next w1 /\ roundable next w1 /\ (cost w1 <= cost w0)%Q).
  { destruct (tc_eq c) as [max|].
    - destruct qu_start as (G & ST & FI & _). destruct qu_specs as [F FS]. destruct (tr_fuel r) as [|[|f]] eqn:EF; [lia|lia|].
      destruct (C35_dense_networks_never_worse input specs cost f max (tr_turns r) (tr_eq r)
        (full_groups (map (fun sp => match s_act sp with Some _ => true | None => false end) specs)) (wf_good _ G) ST F FI FS (or_intror eq_refl)) as (o & E & X).
      + rewrite qu_next. exact LO.
      + exact FD.
      + rewrite qu_next in E, X. rewrite <- (describe_acts ls specs n (qu_nodes _ _ _ _ QU)) in E. exists o. split; [exact E|].
        intros w1 ->. destruct X as [SE LE].
        assert (SS := equalize_session w0 _ _ _ _ _ _ _ _ _ (ss_start w0 next) E). split; [exact SS|]. split; [|exact LE]. split.
        * exact (proj1 (session_kept _ _ _ (ro_wf _ _ qu_roundable) SS)).
        * exact (all_equalize int_pol int_params int_requantize _ _ _ _ _ _ _ _ _ (ro_int _ _ qu_roundable) E).
        * apply (se_step _ _ _ SE).
    - exists (Some w0). split; [reflexivity|]. intros w1 E. assert (w1 = w0) by congruence. subst w1. split; [apply ss_start|]. split; [exact qu_roundable|apply Qle_refl]. }
  destruct EQ as (o & E & X). rewrite E. cbn [rbind]. destruct o as [w1|]; [|exists None; split; [reflexivity|discriminate]].
  destruct (X w1 eq_refl) as (S1 & R1 & LE). destruct (tc_ada c) as [[steps max]|].
  - destruct (ada_net_run _ w0 next cost steps max (tr_turns r) (tr_ada r) LO qu_roundable ls n 0 w1 qu_laid (qu_shape _ _ _ _ QU)) as (o & E2 & _ & X2); [unfold next; lia|exact S1|exact R1|].
    exists o. split; [exact E2|]. intros w' EW. destruct (X2 w' EW) as (S2 & R2 & C2 & _). split; [exact S2|]. split; [exact R2|].
    destruct C2 as [C2|(w & SW & ZW & LW)]; [left|right; exists w; split; [exact SW|]; split; [exact ZW|]; unfold cost in LW, LE; lra]. eapply Qle_trans; [exact C2|exact LE].
  - exists (Some w1). split; [reflexivity|]. intros w' EW. assert (w' = w1) by congruence. subst w'. split; [exact S1|]. split; [exact R1|]. left. exact LE.
Qed.
End Quantized.

(** ** C81 *)
(** The tuning stage never raises.  When it ends, it has performed a tuning session, and the network it leaves has no larger loss than the
    network it was given - unless some network of a session, no worse than the one given, had loss 0, which AdaRound mistakes for "no energy" (finding F: C37). *)
Theorem C81_build_never_worse : forall n ls input specs loss c r, quantized n ls input specs -> reads_network loss -> fair_run r ->
  let w0 := w_nodes (build_net input specs) in
  exists o, tune_net loss c r w0 ls = Ok o /\
    forall w', o = Some w' -> session w0 (4 * length ls + 1) w' /\
      ((loss (export_net w' ls) <= loss (export_net w0 ls))%Q \/
       exists w, session w0 (4 * length ls + 1) w /\ (loss (export_net w ls) == 0)%Q /\ (loss (export_net w ls) <= loss (export_net w0 ls))%Q).
Proof.
  intros n ls input specs loss c r QU RN FR w0. destruct (tune_run_ok n ls input specs QU loss c r RN FR) as (o & E & X).
  exists o. split; [exact E|]. intros w' EW. destruct (X w' EW) as (A & _ & B). split; assumption.
Qed.
(** In terms of files: quantizing and tuning a model writes a file with no larger loss than the file written without tuning (for losses
    that are never 0, or when the untuned loss is negative, as minus the number of hits is), and if its numbers pass the check the error certificate of C79 covers it. *)
Theorem C81_build_file : forall c ls data n j, rready c ls data n -> pipe_build c ls data = Ok j -> Forall tuned_ok (jt_graph j) ->
  exists w0 : world, build_file None (mktune None None) (mkrun 0 0 (fun _ _ _ => mkdraw 0 0 0) (fun _ => mkadraw (fun _ _ => 0%nat) (fun _ _ => 0%nat) (fun _ => true))) w0 (denses ls) = Ok (Some j) /\
    forall loss tc r, reads_network loss -> (loss j < 0)%Q \/ (forall j', ~ (loss j' == 0)%Q) -> fair_run r ->
      exists o, build_file (Some loss) tc r w0 (denses ls) = Ok o /\
        forall j', o = Some j' -> (loss j' <= loss j)%Q /\
          (Forall tuned_ok (jt_graph j') -> exists qop ops out, dense_file (denses ls) n j' qop ops out).
Proof.
  intros c ls data n j R PB OK. destruct (C80_same_file c ls data n j R PB) as (input & qi & fi & specs & CI & RI & DE & E).
  destruct R as [_ Hn Sh _ _ _].
  assert (QU : quantized n (denses ls) input specs) by (constructor; [exact Hn|exact Sh|eauto|exact DE|rewrite E; exact OK]).
  exists (w_nodes (build_net input specs)). split; [unfold build_file; cbn [rbind option_map]; now rewrite E|].
  intros loss tc r RN NZ FR. destruct (C81_build_never_worse n (denses ls) input specs loss tc r QU RN FR) as (o & EO & X).
  unfold build_file. rewrite EO. cbn [rbind]. eexists. split; [reflexivity|]. intros j' EJ. destruct o as [w'|]; [|discriminate]. cbn [option_map] in EJ.
  assert (j' = export_net w' (denses ls)) by congruence. subst j'. destruct (X w' eq_refl) as [SS LE]. split.
  - destruct LE as [LE|(w & _ & Z0 & LZ)]; [rewrite E in LE; exact LE|]. exfalso. rewrite E in LZ. destruct NZ as [NZ|NZ]; [lra|exact (NZ _ Z0)].
  - intros OK'. exact (C80_session_file (denses ls) n input qi fi specs w' Hn Sh CI RI DE SS OK').
Qed.

(** ** Losses computed by running the inference engine *)
(** results up to the representation of rationals *)
Definition same_val (v v' : pval) : Prop :=
  match v, v' with
  | VF m, VF m' => Forall2 (Forall2 Qeq) m m'
  | VI m, VI m' => m = m'
  | _, _ => False
  end.
Definition same_res {A} (R : A -> A -> Prop) (a b : res A) : Prop :=
  match a, b with Ok x, Ok y => R x y | Err e, Err e' => e = e' | _, _ => False end.
Definition outputs (j : jnet pbody) (batch : list (list Q)) : res pval := do net <- pipe_load j; pipe_infer net batch.

Lemma frexp_exp_comp x y : (x == y)%Q -> ~ (x == 0)%Q -> frexp_exp x = frexp_exp y.
Proof.
  intros E N. assert (N' : ~ (y == 0)%Q) by (rewrite <- E; exact N). destruct (frexp_exp_spec y N') as [A B].
  apply frexp_exp_unique; [exact N| |]; rewrite E; assumption.
Qed.
Lemma fc_mult_comp x y : (x == y)%Q -> fc_mult_build x = fc_mult_build y.
Proof.
  intros E. unfold fc_mult_build. destruct (Qlt_le_dec x (1#1000000)) as [L|L], (Qlt_le_dec y (1#1000000)) as [L'|L']; try (exfalso; lra); [reflexivity|].
  assert (N : ~ (x == 0)%Q) by lra. assert (N' : ~ (y == 0)%Q) by lra. rewrite (frexp_eq x N), (frexp_eq y N'), (frexp_exp_comp x y E N).
  assert (Q1 : Qround_even (x / pow2 (frexp_exp y) * inject_Z (2 ^ 31)) = Qround_even (y / pow2 (frexp_exp y) * inject_Z (2 ^ 31))) by (rewrite E; reflexivity).
  rewrite Q1. reflexivity.
Qed.
Lemma nodes_index : forall l l' i, Forall2 same_node l l' -> same_res same_node (py_index l i) (py_index l' i).
Proof.
  intros l l' i F. assert (L := PropAnneal.Forall2_length _ _ _ F). unfold py_index. rewrite <- L.
  assert (X : forall k, match nth_error l k, nth_error l' k with Some a, Some b => same_node a b | None, None => True | _, _ => False end).
  { induction F as [|a b l l' H F IH]; intros [|k]; cbn [nth_error]; try exact Logic.I; [exact H|]. apply IH. cbn [length] in L. congruence. }
  repeat match goal with |- context [if ?b then _ else _] => destruct b end; cbn [same_res]; try reflexivity;
    match goal with |- context [nth_error l ?k] => specialize (X k); destruct (nth_error l k), (nth_error l' k); try contradiction; cbn [same_res]; auto end.
Qed.
Lemma asI_same v v' : same_val v v' -> asI v = asI v'.
Proof.
  destruct v as [m|m], v' as [m'|m']; cbn [same_val asI]; try contradiction; [|exact (fun H => H)]. intros F.
  induction F as [|r r' m m' H F IH]; [reflexivity|]. cbn [map]. f_equal; [|exact IH]. clear F IH.
  induction H as [|a b r r' E H IH]; [reflexivity|]. cbn [map]. f_equal; [|exact IH]. unfold Qtrunc.
  assert (B : Qle_bool 0 a = Qle_bool 0 b). { destruct (Qle_bool 0 b) eqn:Q1; [apply Qle_bool_iff; apply Qle_bool_iff in Q1; rewrite E; exact Q1|].
    destruct (Qle_bool 0 a) eqn:Q2; [|reflexivity]. apply Qle_bool_iff in Q2. rewrite E in Q2. apply Qle_bool_iff in Q2. congruence. }
  rewrite B. destruct (Qle_bool 0 b); [apply Qfloor_comp, E|apply Qceiling_comp, E].
Qed.
Lemma asF_same v v' : same_val v v' -> Forall2 (Forall2 Qeq) (asF v) (asF v').
Proof.
  destruct v as [m|m], v' as [m'|m']; cbn [same_val asF]; try contradiction; [exact (fun H => H)|]. intros ->.
  induction m' as [|r m IH]; constructor; [|exact IH]. clear IH. induction r; constructor; [reflexivity|assumption].
Qed.
(** a layer as a function on values *)
Definition same_layer (f g : layer pval) : Prop := forall v v', same_val v v' -> same_res same_val (f v) (g v').
Ltac same_bind E H := match goal with |- same_res _ (rbind ?a _) (rbind ?b _) =>
  destruct a eqn:E, b eqn:H; cbn [same_res rbind] in *; try contradiction; try assumption; try congruence end.
Lemma same_quantize b b' : Forall2 same_node (pb_out b) (pb_out b') -> same_res same_layer (ie_quantize b) (ie_quantize b').
Proof.
  intros F. unfold ie_quantize. assert (X := nodes_index _ _ 0 F). destruct (py_index (pb_out b) 0) as [o|], (py_index (pb_out b') 0) as [o'|]; cbn [same_res rbind] in *; try contradiction; [|congruence].
  destruct X as (S0 & Z0 & D0 & _). rewrite D0, Z0. destruct (parse_dtype (pn_dtype o')) as [q|]; cbn [rbind same_res]; [|reflexivity].
  intros v v' SV. cbn [same_res same_val]. assert (A := asF_same _ _ SV). induction A as [|r r' m m' H A IH]; [reflexivity|]. cbn [map]. f_equal; [|exact IH].
  clear - H S0. induction H as [|x y r r' E H IH]; [reflexivity|]. cbn [map]. f_equal; [|exact IH]. rewrite S0, E. reflexivity.
Qed.
Lemma same_dequantize b b' : Forall2 same_node (pb_in b) (pb_in b') -> same_res same_layer (ie_dequantize b) (ie_dequantize b').
Proof.
  intros F. unfold ie_dequantize. assert (X := nodes_index _ _ 0 F). destruct (py_index (pb_in b) 0) as [o|], (py_index (pb_in b') 0) as [o'|]; cbn [same_res rbind] in *; try contradiction; [|congruence].
  destruct X as (S0 & Z0 & D0 & _). rewrite D0, Z0. destruct (parse_dtype (pn_dtype o')) as [q|]; cbn [rbind same_res]; [|reflexivity].
  intros v v' SV. cbn [same_res same_val]. rewrite (asI_same _ _ SV). induction (asI v') as [|r m IH]; constructor; [|exact IH].
  clear - S0. induction r as [|x r IH]; constructor; [|exact IH]. unfold dequant1. rewrite S0. reflexivity.
Qed.
Lemma same_fc b b' : Forall2 same_node (pb_in b) (pb_in b') -> Forall2 same_node (pb_out b) (pb_out b') -> same_res same_layer (ie_fc b) (ie_fc b').
Proof.
  intros F G. unfold ie_fc.
  assert (X0 := nodes_index _ _ 0 F). destruct (py_index (pb_in b) 0) as [i|], (py_index (pb_in b') 0) as [i'|]; cbn [same_res rbind] in *; try contradiction; [|congruence].
  assert (X1 := nodes_index _ _ 1 F). destruct (py_index (pb_in b) 1) as [k|], (py_index (pb_in b') 1) as [k'|]; cbn [same_res rbind] in *; try contradiction; [|congruence].
  assert (X2 := nodes_index _ _ 2 F). destruct (py_index (pb_in b) 2) as [c|], (py_index (pb_in b') 2) as [c'|]; cbn [same_res rbind] in *; try contradiction; [|congruence].
  assert (X3 := nodes_index _ _ 0 G). destruct (py_index (pb_out b) 0) as [o|], (py_index (pb_out b') 0) as [o'|]; cbn [same_res rbind] in *; try contradiction; [|congruence].
  destruct X0 as (S0 & Z0 & D0 & T0 & _), X1 as (S1 & Z1 & D1 & T1 & _), X2 as (S2 & Z2 & D2 & T2 & _), X3 as (S3 & Z3 & D3 & T3 & _).
  rewrite T1, T2. destruct (pn_tensor k') as [|?|w]; try (cbn [same_res]; reflexivity). destruct (pn_tensor c') as [|bv|?]; try (cbn [same_res]; reflexivity).
  unfold fc_build. assert (M : (pn_scale i * pn_scale k / pn_scale o == pn_scale i' * pn_scale k' / pn_scale o')%Q) by (rewrite S0, S1, S3; reflexivity).
  assert (M' : fc_mult_of (pn_scale i) (pn_scale k) (pn_scale o) = fc_mult_of (pn_scale i') (pn_scale k') (pn_scale o')).
  { unfold fc_mult_of. assert (Q0 : Qeq_bool (pn_scale o) 0 = Qeq_bool (pn_scale o') 0) by (rewrite S3; reflexivity). rewrite Q0, (fc_mult_comp _ _ M). reflexivity. }
  rewrite M', D3, Z0, Z1, Z3. destruct (fc_mult_of (pn_scale i') (pn_scale k') (pn_scale o')) as [f|]; cbn [rbind same_res]; [|reflexivity].
  destruct (parse_dtype (pn_dtype o')) as [q|]; cbn [rbind same_res]; [|reflexivity]. intros v v' SV. rewrite (asI_same _ _ SV).
  destruct (fc_infer _ _) as [[| |]|]; cbn [rbind same_res same_val]; reflexivity.
Qed.
Lemma same_lut b b' : Forall2 same_node (pb_in b) (pb_in b') -> same_res same_layer (ie_lut b) (ie_lut b').
Proof.
  intros F. unfold ie_lut. assert (X := nodes_index _ _ 0 F). destruct (py_index (pb_in b) 0) as [o|], (py_index (pb_in b') 0) as [o'|]; cbn [same_res rbind] in *; try contradiction; [|congruence].
  destruct X as (_ & _ & _ & _ & L0). rewrite L0. destruct (lut_from_node (pn_lut o')) as [a|]; cbn [rbind same_res]; [|reflexivity].
  intros v v' SV. rewrite (asI_same _ _ SV). destruct (concat (asI v')); [cbn [same_res]; reflexivity|]. destruct (mapM _ (asI v')); cbn [rbind same_res same_val]; reflexivity.
Qed.
Lemma same_softmax b b' : Forall2 same_node (pb_in b) (pb_in b') -> same_res same_layer (ie_softmax b) (ie_softmax b').
Proof.
  intros F. unfold ie_softmax. assert (X := nodes_index _ _ 0 F). destruct (py_index (pb_in b) 0) as [o|], (py_index (pb_in b') 0) as [o'|]; cbn [same_res rbind] in *; try contradiction; [|congruence].
  intros v v' SV. exact SV.
Qed.
Lemma same_built op op' : same_op op op' -> same_res same_layer (build_layer ie_builders op) (build_layer ie_builders op').
Proof.
  intros (T & _ & I0 & O0). unfold build_layer. rewrite T. destruct (build_layer_kind (jo_type op')) as [k|]; cbn [rbind same_res]; [|reflexivity].
  cbn [ie_builders b_tflite]. destruct k; cbn [same_res]; auto using same_quantize, same_dequantize, same_fc, same_lut, same_softmax.
Qed.
Lemma same_mapM g g' (f : jop pbody -> res (layer pval)) : (forall op op', same_op op op' -> same_res same_layer (f op) (f op')) -> Forall2 same_op g g' ->
  same_res (Forall2 same_layer) (mapM f g) (mapM f g').
Proof.
  intros H F. induction F as [|o o' g g' S0 F IH]; cbn [mapM same_res]; [constructor|].
  specialize (H _ _ S0). destruct (f o), (f o'); cbn [same_res rbind] in *; try contradiction; [|exact H].
  destruct (mapM f g), (mapM f g'); cbn [same_res rbind] in *; try contradiction; [constructor; assumption|exact IH].
Qed.
Lemma same_layers_run : forall ls ls' v v' i i', Forall2 same_layer ls ls' -> same_val v v' -> same_res same_val (snd (run_layers ls v i)) (snd (run_layers ls' v' i')).
Proof.
  intros ls ls' v v' i i' F. revert v v' i i'. induction F as [|l l' ls ls' H F IH]; intros v v' i i' SV; cbn [run_layers snd same_res]; [exact SV|].
  specialize (H v v' SV). destruct (l v), (l' v'); cbn [same_res] in H; try contradiction; [now apply IH|exact H].
Qed.
(** The engine sees a file only through its numbers: files with the same numbers give the same outputs (or the same exception) on every
    batch, so every loss computed from the outputs of the quantized network may be used for tuning. *)
Theorem C81_engine_reads_network : forall j j' batch, same_file j j' -> same_res same_val (outputs j batch) (outputs j' batch).
Proof.
  intros j j' batch (E0 & I0 & O0 & G). unfold outputs, pipe_load, seq_init. rewrite I0, O0, E0.
  destruct (py_index (jt_input j') 0) as [inp|]; cbn [rbind same_res]; [|reflexivity]. destruct (py_index (jt_output j') 0) as [out|]; cbn [rbind same_res]; [|reflexivity].
  destruct inp as [inp|]; [|reflexivity]. destruct out as [out|]; [|reflexivity].
  assert (X : same_res same_op (py_index (jt_graph j) 0) (py_index (jt_graph j') 0)) by (destruct G; cbn; [reflexivity|assumption]).
  destruct (py_index (jt_graph j) 0) as [g|], (py_index (jt_graph j') 0) as [g'|]; cbn [same_res rbind] in *; try contradiction; [|exact X].
  destruct X as (_ & NM & _). rewrite NM. unfold get_engine.
  assert (RUN : forall bld, (forall op op', same_op op op' -> same_res same_layer (bld op) (bld op')) ->
    same_res same_val (do net <- (do ls <- mapM bld (jt_graph j); Ok (mkseq (contains (str "QUANT") (upper (jo_name g'))) (jn_scale inp) (jn_zp inp) ls [])); pipe_infer net batch)
      (do net <- (do ls <- mapM bld (jt_graph j'); Ok (mkseq (contains (str "QUANT") (upper (jo_name g'))) (jn_scale inp) (jn_zp inp) ls [])); pipe_infer net batch)).
  { intros bld B. assert (Y := same_mapM _ _ bld B G). destruct (mapM bld (jt_graph j)), (mapM bld (jt_graph j')); cbn [same_res rbind] in *; try contradiction; [|exact Y].
    unfold pipe_infer, seq_infer. cbn [sn_quant sn_layers sn_in_s sn_in_zp]. destruct (contains _ _); [|cbn [no_toi8 snd same_res]; reflexivity].
    assert (SV : same_val (VF batch) (VF batch)). { cbn [same_val]. apply Forall2_diag, Forall_forall. intros r _. apply Forall2_diag, Forall_forall. intros x _. reflexivity. }
    assert (Z0 := same_layers_run a a0 (VF batch) (VF batch) [] [] Y SV). destruct (run_layers a (VF batch) []), (run_layers a0 (VF batch) []). exact Z0. }
  destruct (chars_eqb (upper (jt_engine j')) (str "TFLITE")); [cbn [rbind]; exact (RUN (build_layer ie_builders) same_built)|].
  destruct (chars_eqb (upper (jt_engine j')) (str "ONNX")); [|cbn [rbind same_res]; reflexivity].
  cbn [rbind]. apply RUN. intros op op' (T & _). unfold build_operator. rewrite T. destruct (build_operator_kind (jo_type op')); cbn [rbind same_res]; reflexivity.
Qed.
Theorem C81_output_losses : forall batch (score : res pval -> Q), (forall a b, same_res same_val a b -> (score a == score b)%Q) ->
  reads_network (fun j => score (outputs j batch)).
Proof. intros batch score H j j' S0. apply H, C81_engine_reads_network, S0. Qed.

(** ** Termination *)
Section Stop.
Context (n : nat) (ls : list kdense) (input : node) (specs : list dense_spec) (QU : quantized n ls input specs).
Let w0 := w_nodes (build_net input specs).
Let next := (4 * length ls + 1)%nat.
Lemma tune_stops loss c (low : Z) n0 : reads_network loss -> (forall j, exists k : nat, (loss j == inject_Z (low + Z.of_nat k))%Q) ->
  (loss (export_net w0 ls) == inject_Z (low + Z.of_nat n0))%Q ->
  let bound := ((match tc_eq c with Some max => (n0 + 1) * (max + 1) | None => 0 end) + (match tc_ada c with Some (_, max) => net_bound max w0 0 ls | None => 0 end))%nat in
  forall r, fair_run r -> (bound <= tr_turns r)%nat -> exists w', tune_net loss c r w0 ls = Ok (Some w').
Proof.
  intros RN INT C0 bound r FR TT. pose proof FR as [FU FD]. assert (OK := tune_run_ok n ls input specs QU loss c r RN FR). destruct OK as (o & E & _).
  fold w0 in E. destruct o as [w'|]; [exists w'; exact E|]. exfalso. unfold tune_net in E. fold next in E. set (cost := fun v => loss (export_net v ls)) in *.
  assert (LO : loss_of_network next cost) by exact (loss_network loss ls RN).
  assert (EQ : exists w1, match tc_eq c with
      | Some max => equalize (tr_fuel r) cost next max (tr_turns r) w0 (full_groups (map (fun l => mem (upper (kd_act l)) LUT_FUNCTIONS) ls)) (tr_eq r)
      | None => Ok (Some w0) end = Ok (Some w1) /\ session w0 next w1 /\ roundable next w1).
  { assert (MID := tune_run_ok n ls input specs QU loss (mktune (tc_eq c) None) r RN FR). destruct MID as (o & EM & XM). fold w0 in EM, XM.
    unfold tune_net in EM. cbn [tc_eq tc_ada] in EM. fold next in EM. fold cost in EM.
    destruct (tc_eq c) as [max|]; [|exists w0; split; [reflexivity|]; split; [apply ss_start|exact (qu_roundable n ls input specs QU)]].
    assert (X : exists w1, equalize (tr_fuel r) cost next max (tr_turns r) w0 (full_groups (map (fun l => mem (upper (kd_act l)) LUT_FUNCTIONS) ls)) (tr_eq r) = Ok (Some w1)).
    { unfold full_groups. cbn [equalize]. set (acts := map (fun l => mem (upper (kd_act l)) LUT_FUNCTIONS) ls).
      set (g := concat (map (fun p : nat * bool => layer_nodes (fst p) (snd p)) (combine (seq 0 (length acts)) acts))).
      destruct (C35_groups_ok acts) as [_ GO]. unfold full_groups in GO. fold g in GO. assert (G1 := Forall_inv GO). destruct G1 as [ND GI].
      assert (LA : length acts = length ls) by (unfold acts; apply map_length). rewrite LA in GI. fold next in GI.
      destruct (qu_start n ls input specs QU) as (G & ST & FI & _). destruct (qu_specs n ls input specs QU) as [F FS].
      destruct (build_built input specs FI FS) as [_ BB _ _ BP].
      assert (TU : tunable next (w_layers (build_net input specs)) w0 g).
      { split; [exact ND|]. intros i Hi. destruct (GI i Hi) as [L M]. split; [exact L|]. split; [|apply BP].
        intros h Hh C. destruct (BB h Hh) as (u & _ & EH). apply M. rewrite C, EH. replace (4 * u + 2)%nat with (2 + u * 4)%nat by lia. rewrite Nat.mod_add by lia. reflexivity. }
      destruct (tr_fuel r) as [|[|f]] eqn:EF; [lia|lia|].
      destruct (C35_terminates next (w_layers (build_net input specs)) w0 g cost f max (tr_turns r) (tr_eq r 0%nat) low n0 (qu_settled n ls input specs QU) TU LO (FD 0%nat)
        (fun w => INT (export_net w ls)) C0) as (w' & c' & seen & EB).
      - unfold bound in TT. cbn [tc_eq] in TT. lia.
      - rewrite EB. cbn [rbind]. now exists w'. }
    destruct X as (w1 & X). rewrite X in EM. cbn [rbind] in EM. assert (EO : o = Some w1) by congruence. destruct (XM w1 EO) as (A & B & _). exists w1. split; [exact X|]. split; assumption. }
  destruct EQ as (w1 & E1 & S1 & R1). rewrite E1 in E. cbn [rbind] in E. destruct (tc_ada c) as [[steps max]|] eqn:EA; [|discriminate].
  destruct (ada_net_run _ w0 next cost steps max (tr_turns r) (tr_ada r) LO (qu_roundable n ls input specs QU) ls n 0 w1 (qu_laid n ls input specs QU) (qu_shape _ _ _ _ QU)) as (o & E2 & N2 & _);
    [unfold next; lia|exact S1|exact R1|].
  assert (o = None) by congruence. specialize (N2 H). unfold bound in TT. lia.
Qed.
End Stop.
(** For a loss that takes integer values bounded below (misclassified samples, or minus the number of hits), the tuning stage ends for every sequence of draws, within a number of
    turns per loop that does not depend on the draws. *)
Theorem C81_build_terminates : forall n ls input specs loss c low, quantized n ls input specs -> reads_network loss ->
  (forall j, exists k : nat, (loss j == inject_Z (low + Z.of_nat k))%Q) ->
  exists bound, forall r, fair_run r -> (bound <= tr_turns r)%nat -> exists w', tune_net loss c r (w_nodes (build_net input specs)) ls = Ok (Some w').
Proof.
  intros n ls input specs loss c low QU RN INT. destruct (INT (export_net (w_nodes (build_net input specs)) ls)) as (n0 & C0).
  eexists. exact (tune_stops n ls input specs QU loss c low n0 RN INT C0).
Qed.

(** ** What the tuned file rounds to *)
(** [c] is one of the two codes next to the exact one of [x] in node [k], saturated to the dtype *)
Definition neighbour (k : pnode) (q : gdtype) (x : Q) (c : Z) : Prop :=
  exists up, (up = 0 \/ up = 1) /\ c = clamp (gmin q) (gmax q) (Qfloor (real_code x (pn_scale k) (pn_zp k)) + up).
Definition kernel_rounded (l : kdense) (k : pnode) : Prop :=
  exists q rows, parse_dtype (pn_dtype k) = Ok q /\ pn_tensor k = PMat rows /\ length rows = kd_units l /\
    forall j, (j < kd_units l)%nat -> length (nth j rows []) = length (kd_kernel l) /\
      forall c, (c < length (kd_kernel l))%nat -> neighbour k q (nth c (column j (kd_kernel l)) 0%Q) (nth c (nth j rows []) 0).
Definition bias_rounded (l : kdense) (b : pnode) : Prop :=
  exists q v, parse_dtype (pn_dtype b) = Ok q /\ pn_tensor b = PVec v /\ length v = kd_units l /\
    forall j, (j < kd_units l)%nat -> neighbour b q (bias_at l j) (nth j v 0).
Fixpoint rounded (ls : list kdense) (g : list (jop pbody)) : Prop :=
  match ls, g with
  | l :: ls', op :: g' =>
      (exists i k b o, jo_body op = mkpb [i; k; b] [o] /\ kernel_rounded l k /\ bias_rounded l b) /\
      rounded ls' (if is_table l then tl g' else g')
  | [], [] => True
  | _, _ => False
  end.
Lemma neighbour_code q fp x s z p k : (fp == x)%Q -> p = 0%Q \/ p = 1%Q -> pn_scale k = s -> pn_zp k = z -> neighbour k q x (code_of q fp s z p).
Proof.
  intros E P <- <-. assert (E' : (real_code fp (pn_scale k) (pn_zp k) == real_code x (pn_scale k) (pn_zp k))%Q) by (unfold real_code; rewrite E; reflexivity).
  destruct P as [-> | ->]; [exists 0|exists 1]; (split; [auto|]); unfold code_of; f_equal; rewrite E'.
  - rewrite Z.add_0_r. apply Qfloor_comp. ring.
  - apply (Qfloor_plus_Z _ 1).
Qed.
Lemma nth_map_seq {A} (f : nat -> A) m d j : (j < m)%nat -> nth j (map f (seq 0 m)) d = f j.
Proof. intros H. rewrite nth_indep with (d' := f 0%nat) by (rewrite map_length, seq_length; exact H). rewrite map_nth, seq_nth by exact H. reflexivity. Qed.
Lemma store_rounded p next w : roundable next w -> forall ls n inp k, laid p w n k ls -> shaped n ls -> (k + 4 * length ls <= next)%nat ->
  rounded ls (fst (export_layers w inp k ls)).
Proof.
  intros [W IP ST]. induction ls as [|l ls IH]; intros n inp k LA Sh HL; [exact Logic.I|]. destruct LA as [L1 L2]. apply shaped_layer in Sh as (SL & SR & Hn).
  cbn [length] in HL. cbn [export_layers]. rewrite lut_functions_table.
  assert (X : exists i k0 b o, mkpb [data_json (w inp); weight_json (w k); weight_json (w (S k))] [data_json (w (S (S k)))] = mkpb [i; k0; b] [o] /\ kernel_rounded l k0 /\ bias_rounded l b).
  { destruct L1 as [(tk & EK & (SK & VK) & KK) (tb & EB & (SB & VB) & KB) _ _]. destruct SL as (_ & Hu & LK & _).
    eexists _, _, _, _. split; [reflexivity|]. split.
    - specialize (ST k ltac:(lia)). destruct (IP k) as [IK _]. unfold in_step in ST. destruct (n_tens (w k)) as [x|] eqn:T; [|discriminate]. cbn [option_map] in EK.
      assert (EF : t_fp x = tk) by congruence. rewrite EF in *. destruct ST as [SH CO]. destruct IK as [IB IS].
      exists (n_q (w k)), (map (fun j => map (fun i => nd_get (t_codes x) [j; i]) (seq 0 n)) (seq 0 (kd_units l))).
      split; [exact (known_parse _ (proj2 KK))|]. unfold weight_json. rewrite T. cbn [pn_tensor]. unfold nd_rows. rewrite SH, SK. split; [reflexivity|].
      split; [rewrite map_length, seq_length; reflexivity|]. intros j Hj. rewrite (nth_map_seq (fun j => map (fun i => nd_get (t_codes x) [j; i]) (seq 0 n))) by exact Hj.
      split; [rewrite map_length, seq_length; congruence|]. intros c Hc. rewrite (nth_map_seq (fun i => nd_get (t_codes x) [j; i])) by congruence.
      assert (VI : valid_idx (nd_shape tk) [j; c] = true). { rewrite SK. cbn [valid_idx]. rewrite (proj2 (Nat.ltb_lt j _) Hj), (proj2 (Nat.ltb_lt c n) ltac:(congruence)). reflexivity. }
      rewrite (CO _ VI). apply neighbour_code; [apply VK; [exact Hj|congruence]| |reflexivity|reflexivity]. apply IB. rewrite IS. exact VI.
    - specialize (ST (S k) ltac:(lia)). destruct (IP (S k)) as [IK _]. unfold in_step in ST. destruct (n_tens (w (S k))) as [x|] eqn:T; [|discriminate]. cbn [option_map] in EB.
      assert (EF : t_fp x = tb) by congruence. rewrite EF in *. destruct ST as [SH CO]. destruct IK as [IB IS].
      exists (n_q (w (S k))), (map (fun j => nd_get (t_codes x) [j]) (seq 0 (kd_units l))).
      split; [exact (known_parse _ (proj2 KB))|]. unfold weight_json. rewrite T. cbn [pn_tensor]. unfold nd_rows. rewrite SH, SB. split; [reflexivity|].
      split; [rewrite map_length, seq_length; reflexivity|]. intros j Hj. rewrite (nth_map_seq (fun j => nd_get (t_codes x) [j])) by exact Hj.
      assert (VI : valid_idx (nd_shape tb) [j] = true). { rewrite SB. cbn [valid_idx]. rewrite (proj2 (Nat.ltb_lt j _) Hj). reflexivity. }
      rewrite (CO _ VI). apply neighbour_code; [apply VB; exact Hj| |reflexivity|reflexivity]. apply IB. rewrite IS. exact VI. }
  destruct (is_table l) eqn:T; cbn [fst rounded]; rewrite T; cbn [jo_body tl]; (split; [exact X|]).
  - exact (IH (kd_units l) (S (S (S k))) (S (S (S (S k)))) L2 SR ltac:(lia)).
  - exact (IH (kd_units l) (S (S k)) (S (S (S (S k)))) L2 SR ltac:(lia)).
Qed.
(** Every weight and bias of the tuned file is one of the two codes next to the exact quotient of the float parameter by the scale that
    the file gives, saturated: tuning moves scales and picks rounding directions, and nothing else. *)
Theorem C81_rounding_choice : forall n ls input specs loss c r w', quantized n ls input specs -> reads_network loss -> fair_run r ->
  tune_net loss c r (w_nodes (build_net input specs)) ls = Ok (Some w') ->
  exists q ops d, jt_graph (export_net w' ls) = q :: ops ++ [d] /\ rounded ls ops.
Proof.
  intros n ls input specs loss c r w' QU RN FR E. destruct (tune_run_ok n ls input specs QU loss c r RN FR) as (o & EO & X).
  assert (EW : o = Some w') by congruence. destruct (X w' EW) as (SS & R & _). eexists _, _, _. split; [reflexivity|].
  refine (store_rounded (fun j => pars (w_nodes (build_net input specs) j)) _ w' R ls n 0 1 _ (qu_shape _ _ _ _ QU) _); [|lia].
  refine (laid_kept _ _ w' ls n 1 (4 * length ls + 1) _ (proj2 (session_kept _ _ _ (ro_wf _ _ (qu_roundable n ls input specs QU)) SS)) (qu_laid n ls input specs QU)). lia.
Qed.

(** ** AdaRound alone *)
Definition rounding (hs : list hook) (w0 : world) (o : op) : Prop := tuning w0 o /\ updating o /\ allowed hs o /\ unit_policy o.
Lemma set_targets_ops hs w0 next f : forall ts ps w w', (forall j, (j < next)%nat -> core (w j) = core (w0 j)) -> Forall (target_in next) ts -> Forall2 (fitting w) ts ps ->
  set_targets w ts ps = Ok w' -> exists os, w' = run f w os /\ Forall (rounding hs w0) os.
Proof.
  induction ts as [|t ts IH]; intros ps w w' C TI F E; inversion F as [|? p ? ps' F1 F2]; subst; cbn [set_targets] in E; [assert (w' = w) by congruence; subst; exists []; split; [reflexivity|constructor]|].
  destruct (set_target w t p) as [w1|] eqn:E1; [|discriminate]. cbn [rbind] in E. assert (T1 := Forall_inv TI). assert (T2 := Forall_inv_tail TI).
  assert (FR := set_target_frame _ _ _ _ E1).
  assert (X : exists o, w1 = exec f w o /\ rounding hs w0 o).
  { assert (B := nd_of_pt_bit p (proj2 F1)). apply bit_unit in B. destruct t as [i|i]; cbn [set_target target_in] in *.
    - exists (OPolicy i (nd_of_pt p)). split; [|exact (conj Logic.I (conj Logic.I (conj Logic.I B)))]. destruct (set_policy (w i) (nd_of_pt p)) as [m|] eqn:E2; [|discriminate]. cbn [rbind] in E1.
      match type of E1 with Ok ?m = _ => assert (w1 = m) by congruence end. subst w1. cbn [exec]. rewrite E2. reflexivity.
    - exists (OLutPolicy i (nd_of_pt p)). split; [|split; [|exact (conj Logic.I (conj Logic.I B))]].
      + destruct (n_lut (w i)) as [l|] eqn:LL; [|discriminate]. match type of E1 with Ok ?m = _ => assert (w1 = m) by congruence end. subst w1. cbn [exec]. rewrite LL. reflexivity.
      + cbn [tuning]. rewrite <- (core_q _ _ (C i T1)). exact (proj2 (proj1 F1)). }
  destruct X as (o & EW & RO).
  destruct (IH ps' w1 w') as (os & E3 & F3); [|exact T2| |exact E|].
  - intros j Hj. rewrite <- (C j Hj). rewrite EW. apply exec_core. intros i fn s z ->. exact (proj1 RO).
  - eapply PropAnneal.Forall2_weaken; [|exact F2]. intros a b. apply fitting_frame, FR.
  - exists (o :: os). split; [cbn [run fold_left]; rewrite <- EW; exact E3|constructor; assumption].
Qed.
Lemma run_app f w os os' : run f w (os ++ os') = run f (run f w os) os'. Proof. apply fold_left_app. Qed.
Lemma ada_net_ops hs f p w0 next cost steps max turns ds : loss_of_network next cost -> roundable next w0 ->
  forall ls n t w w', laid p w0 n (4 * t + 1) ls -> shaped n ls -> (4 * t + 1 + 4 * length ls <= next)%nat -> session w0 next w -> roundable next w ->
  ada_net cost steps max turns ds w t ls = Ok (Some w') -> exists os, w' = run f w os /\ Forall (rounding hs w0) os.
Proof.
  intros LO R0. induction ls as [|l ls IH]; intros n t w w' LA Sh HL SS R E; cbn [ada_net] in E; [assert (w' = w) by congruence; subst; exists []; split; [reflexivity|constructor]|].
  destruct LA as [L1 L2]. apply shaped_layer in Sh as (SL & SR & Hn). cbn [length] in HL.
  assert (C := proj2 (session_kept _ _ _ (ro_wf _ _ R0) SS)).
  assert (L1' : layer_at p w l n (4 * t + 1)) by (apply (laid_at p w0 next); [lia|exact C|exact L1]).
  destruct (round_targets_ok p w n l t next L1' SL R ltac:(lia)) as (ND & TI & F & P).
  destruct (ada_round_run w0 next cost steps max turns (ds t) w (round_targets t l) LO SS R ND TI F P) as (r & E1 & N & X). rewrite E1 in E. cbn [rbind] in E.
  destruct r as [w1|]; [|discriminate]. destruct (X w1 eq_refl) as (S1 & R1 & C1 & (b & FB & EB)).
  destruct (set_targets_ops hs w0 next f _ _ _ _ C TI FB EB) as (os1 & A1 & B1).
  replace (S (S (S (S (4 * t + 1))))) with (4 * S t + 1)%nat in L2 by lia.
  destruct (IH (kd_units l) (S t) w1 w' L2 SR ltac:(lia) S1 R1 E) as (os2 & A2 & B2).
  exists (os1 ++ os2). split; [rewrite run_app, <- A1; exact A2|apply Forall_app; split; assumption].
Qed.
(** AdaRound without the equalizer changes no scale and no zero point, and the file it leads to obeys the error bound in the scales of the
    file (C80): rounding directions may be chosen by any loss and any draws without losing the bound. *)
Theorem C81_adaround_bound : forall n ls input specs loss steps max r w' L D, quantized n ls input specs -> reads_network loss -> fair_run r ->
  tune_net loss (mktune None (Some (steps, max))) r (w_nodes (build_net input specs)) ls = Ok (Some w') ->
  (forall j, n_scale (w' j) = n_scale (w_nodes (build_net input specs) j) /\ n_zp (w' j) = n_zp (w_nodes (build_net input specs) j)) /\
  (Forall tuned_ok (jt_graph (export_net w' ls)) ->
   (forall l, In l ls -> is_table l = true -> lipschitz L D l /\ forall a b, (a == b)%Q -> (kd_fn l a == kd_fn l b)%Q) ->
   exists qop ops out net, dense_file ls n (export_net w' ls) qop ops out /\ pipe_load (export_net w' ls) = Ok net /\
    (in_range ls ops -> forall batch, batch <> [] -> (forall x, In x batch -> length x = n) ->
     exists Y, pipe_infer net batch = Ok (VF Y) /\
       Forall2 (fun x y => within (step_cert L D ls ops x (input_err qop x)) y (net_out ls x)) batch Y)).
Proof.
  intros n ls input specs loss steps max r w' L D QU RN FR E. unfold tune_net in E. cbn [tc_eq tc_ada rbind] in E.
  set (w0 := w_nodes (build_net input specs)) in *. assert (R0 := qu_roundable n ls input specs QU). assert (LA := qu_laid n ls input specs QU). fold w0 in R0, LA.
  assert (LO := loss_network loss ls RN).
  destruct (ada_net_run _ w0 _ (fun v => loss (export_net v ls)) steps max (tr_turns r) (tr_ada r) LO R0 ls n 0 w0 LA (qu_shape _ _ _ _ QU) ltac:(lia) (ss_start _ _) R0) as (o & E1 & _ & X).
  assert (EO : o = Some w') by congruence. destruct (X w' EO) as (_ & _ & _ & SB).
  assert (K : forall j, n_scale (w' j) = n_scale (w0 j) /\ n_zp (w' j) = n_zp (w0 j)). { intros j. destruct (SB j) as (A & _). split; [exact (eq_sym (f_equal (fun t => fst (fst (fst (fst (fst t))))) A))|exact (eq_sym (f_equal (fun t => snd (fst (fst (fst (fst t))))) A))]. }
  split; [exact K|]. intros OK LIP.
  destruct (ada_net_ops (w_layers (build_net input specs)) 2 _ w0 _ (fun v => loss (export_net v ls)) steps max (tr_turns r) (tr_ada r) LO R0 ls n 0 w0 w' LA (qu_shape _ _ _ _ QU) ltac:(lia) (ss_start _ _) R0 E) as (os & EW & FO).
  destruct (qu_input _ _ _ _ QU) as (qi & fi & CI & RI).
  assert (Z := C80_step_bound ls n L D input qi fi specs 0 os (qu_in _ _ _ _ QU) (qu_shape _ _ _ _ QU) CI RI (qu_nodes _ _ _ _ QU) LIP FO).
  fold w0 in Z. rewrite <- EW in Z. apply Z; [exact OK|]. intros u _. apply K.
Qed.

(** ** An example: the network of C80, tuned for an output of 1/4 on one sample *)
Definition e9_score (r : res pval) : Q := match r with Ok (VF [[y]]) => (1 + Qabs (y - (1#4)))%Q | _ => 9%Q end.
Definition e9_loss (j : jnet pbody) : Q := e9_score (outputs j [[1; -1]]%Q).
(** a loss that counts: is the output off by more than 1/50? *)
Definition e9_count (j : jnet pbody) : Q := if Qle_bool (e9_loss j) (51#50) then 0%Q else 1%Q.
Definition e9_draws (t k : nat) : draw :=
  mkdraw (if Nat.even t then 1#4 else 3#4) (if Nat.even (t * k) then 1#3 else 2#3) (if Nat.even (t + k) then 1#4 else 3#4).
Definition e9_ada (t : nat) : adraw := mkadraw (fun i k => (7 * i + 3 * k + t)%nat) (fun i k => (5 * i + k + t)%nat) (fun i => Nat.even i).
Definition e9_run : tune_run := mkrun 5 60 (fun _ => e9_draws) e9_ada.
Definition e9_cfg : tune_cfg := mktune (Some 4%nat) (Some (2, 4)%nat).
Lemma e9_score_same a b : same_res same_val a b -> (e9_score a == e9_score b)%Q.
Proof.
  destruct a as [[m|m]|], b as [[m'|m']|]; cbn [same_res same_val]; try contradiction; try (intros; reflexivity); intros F.
  cbn [e9_score]. destruct F as [|r r' m m' H F]; [reflexivity|]. destruct H as [|x y r r' E H]; [reflexivity|].
  destruct H; [|reflexivity]. destruct F; [|reflexivity]. rewrite E. reflexivity.
Qed.
Example C81_example_hypotheses : quantized 2 e8_net e8_input e8_specs /\ reads_network e9_loss /\ (forall j, ~ (e9_loss j == 0)%Q) /\
  reads_network e9_count /\ (forall j, exists k : nat, (e9_count j == inject_Z (0 + Z.of_nat k))%Q) /\ fair_run e9_run.
Proof.
  assert (RN : reads_network e9_loss) by exact (C81_output_losses [[1; -1]]%Q e9_score e9_score_same).
  split; [|split; [exact RN|split; [|split; [|split]]]].
  - destruct C80_example_hypotheses as (SH & CI & RI & DE & _). constructor; [lia|exact SH|eauto|exact DE|].
    assert (K : forallb tuned_okb (jt_graph (export_net (w_nodes (build_net e8_input e8_specs)) e8_net)) = true) by (vm_compute; reflexivity).
    apply Forall_forall. intros o Ho. rewrite forallb_forall in K. apply tuned_okb_sound, K, Ho.
  - intros j. unfold e9_loss. assert (P : forall r, (0 < e9_score r)%Q).
    { intros [[[|[|y []] []]|m]|e]; cbn [e9_score]; try reflexivity. assert (A := Qabs_nonneg (y - (1#4))). lra. }
    specialize (P (outputs j [[1; -1]]%Q)). intros C. rewrite C in P. discriminate.
  - intros j j' SF. unfold e9_count. assert (E := RN j j' SF).
    destruct (Qle_bool (e9_loss j) (51#50)) eqn:A, (Qle_bool (e9_loss j') (51#50)) eqn:B; try reflexivity; exfalso.
    + apply Qle_bool_iff in A. rewrite E in A. apply Qle_bool_iff in A. congruence.
    + apply Qle_bool_iff in B. rewrite <- E in B. apply Qle_bool_iff in B. congruence.
  - intros j. unfold e9_count. destruct (Qle_bool _ _); [exists 0%nat|exists 1%nat]; reflexivity.
  - split; [cbn; lia|]. intros g t k. cbn [e9_run tr_eq]. unfold e9_draws, fair_draw. cbn.
    repeat split; repeat match goal with |- context [if ?b then _ else _] => destruct b end; lra.
Qed.
Example C81_example : exists w', tune_net e9_loss e9_cfg e9_run (w_nodes (build_net e8_input e8_specs)) e8_net = Ok (Some w') /\
  (e9_loss (export_net (w_nodes (build_net e8_input e8_specs)) e8_net) == 525#508)%Q /\
  (e9_loss (export_net w' e8_net) == 1278309#1270000)%Q /\ Forall tuned_ok (jt_graph (export_net w' e8_net)).
Proof.
  assert (K : match tune_net e9_loss e9_cfg e9_run (w_nodes (build_net e8_input e8_specs)) e8_net with
    | Ok (Some w') => Qeq_bool (e9_loss (export_net (w_nodes (build_net e8_input e8_specs)) e8_net)) (525#508) &&
        Qeq_bool (e9_loss (export_net w' e8_net)) (1278309#1270000) && forallb tuned_okb (jt_graph (export_net w' e8_net))
    | _ => false end = true) by (vm_compute; reflexivity).
  destruct (tune_net e9_loss e9_cfg e9_run (w_nodes (build_net e8_input e8_specs)) e8_net) as [[w'|]|]; [|discriminate K|discriminate K].
  exists w'. apply andb_true_iff in K as [K K3]. apply andb_true_iff in K as [K1 K2]. split; [reflexivity|]. split; [apply Qeq_bool_iff, K1|]. split; [apply Qeq_bool_iff, K2|].
  apply Forall_forall. intros o Ho. rewrite forallb_forall in K3. apply tuned_okb_sound, K3, Ho.
Qed.
