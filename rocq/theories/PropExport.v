(** C80: networks tuned after calibration (equalizers, rounding policies) and written to a file. *)
From Verif Require Import Base BaseProofs DtypeModel QuantModel QuantProofs LutModel FcModel EngineModel EngineProofs DistModel BuildModel PipeModel PropCore PropFc
  PropRelu PropDist PipeSpec RPipeSpec PipeProofs RPipeProofs NodeModel PropNode BfsProofs CertSpec PropPipe PropRPipe PropCert EqModel ParamAnnealModel ExportModel ExportSpec.
From Coq Require Import Lqa Qminmax.
Open Scope Z_scope.
Open Scope list_scope.

(** ** Invariants of tuning *)
Definition lutcore (n : node) := option_map (fun l => (l_q l, l_fn l, l_out_s l, l_out_zp l)) (n_lut n).
Definition core (n : node) := (n_q n, option_map t_fp (n_tens n), lutcore n).
Record wf (n : node) : Prop := {
  wf_good : good n;
  wf_codes : match n_tens n with Some t => nd_shape (t_codes t) = nd_shape (t_fp t) | None => True end;
  wf_lut : match n_lut n with
           | Some l => l_q l = n_q n /\ nd_shape (l_policy l) = [code_count (n_q n)] /\ length (l_table l) = code_count (n_q n) /\
                       forall v, In v (l_table l) -> in_dtype (n_q n) v
           | None => True
           end }.
Lemma core_params n s z : core (set_params n s z) = core n. Proof. reflexivity. Qed.
Lemma core_requantize n : core (requantize n) = core n.
Proof. unfold core, lutcore, requantize. destruct n as [? ? ? ? ? [t|] [l|] ?]; reflexivity. Qed.
Lemma update_core fuel w i s z rq w' j : update fuel w i s z rq = Ok w' -> core (w' j) = core (w j).
Proof.
  intros E. assert (K := update_skel _ _ _ _ _ _ _ E j).
  assert (A : n_q (w' j) = n_q (w j)) by exact (f_equal n_q K).
  assert (B := f_equal n_tens K). assert (C := f_equal n_lut K). unfold core, lutcore. rewrite A. cbn [skel n_tens n_lut] in B, C.
  f_equal; [f_equal|].
  - destruct (n_tens (w' j)), (n_tens (w j)); cbn [option_map] in *; try discriminate; [|reflexivity].
    apply (f_equal (option_map t_fp)) in B. exact B.
  - destruct (n_lut (w' j)), (n_lut (w j)); cbn [option_map] in *; try discriminate; [|reflexivity].
    apply (f_equal (option_map (fun l => (l_q l, l_fn l, l_out_s l, l_out_zp l)))) in C. exact C.
Qed.
Lemma set_policy_core n p n' : set_policy n p = Ok n' -> core n' = core n.
Proof.
  unfold set_policy. destruct (n_tens n) as [t|] eqn:T; [|discriminate]. destruct (shape_eqb _ _); [|discriminate]. intros E.
  match type of E with Ok ?m = _ => assert (n' = m) by congruence end. subst n'. unfold core, lutcore. cbn [set_tens n_q n_tens n_lut]. now rewrite T.
Qed.
Lemma exec_core fuel w o j : (forall i fn s z, o <> OWithLut i fn s z) -> core (exec fuel w o j) = core (w j).
Proof.
  intros H. destruct o; cbn [exec].
  - destruct (update fuel w i s z true) eqn:E; [now apply (update_core _ _ _ _ _ _ _ j) in E|reflexivity].
  - destruct (update fuel w i s z false) eqn:E; [now apply (update_core _ _ _ _ _ _ _ j) in E|reflexivity].
  - destruct (set_policy (w i) p) as [n|] eqn:E; cbn [lift]; [|reflexivity]. apply set_policy_core in E.
    destruct (upd_cases w i j n) as [[-> ->]|[_ ->]]; [exact E|reflexivity].
  - unfold reset_rounding. destruct (n_tens (w i)) as [t|] eqn:T; cbn [lift]; [|reflexivity].
    destruct (set_policy (w i) (t_og_policy t)) as [n|] eqn:E; cbn [lift]; [|reflexivity]. apply set_policy_core in E.
    destruct (upd_cases w i j n) as [[-> ->]|[_ ->]]; [exact E|reflexivity].
  - match goal with |- core (upd _ _ ?n _) = _ => destruct (upd_cases w i j n) as [[-> ->]|[_ ->]] end; [|reflexivity].
    unfold core, lutcore. cbn [set_lut n_q n_tens n_lut]. destruct (n_lut (w i)); reflexivity.
  - exfalso. exact (H _ _ _ _ eq_refl).
  - match goal with |- core (upd _ _ ?n _) = _ => destruct (upd_cases w i j n) as [[-> ->]|[_ ->]] end; reflexivity.
  - match goal with |- core (upd _ _ ?n _) = _ => destruct (upd_cases w i j n) as [[-> ->]|[_ ->]] end; reflexivity.
Qed.
Lemma table_wf q f is iz os oz p : within_int32 q -> nd_shape p = [code_count q] ->
  length (create_LUT q f is iz os oz (Some p)) = code_count q /\ forall v, In v (create_LUT q f is iz os oz (Some p)) -> in_dtype q v.
Proof.
  intros W S0. split; [apply create_LUT_length; exact S0|]. intros v Hv. unfold create_LUT, nd_to_list in Hv.
  apply in_map_iff in Hv as (i & <- & _). apply (quantize_range q). exact W.
Qed.
Lemma requantize_wf n : wf n -> wf (requantize n).
Proof.
  intros [G C L]. pose proof (requantize_ok n G) as [G' I']. split; [exact G'| |].
  - unfold in_step in I'. destruct (n_tens (requantize n)); [apply I'|exact Logic.I].
  - unfold requantize. cbn [set_lut set_tens n_lut n_q n_scale n_zp]. destruct (n_lut n) as [l|]; cbn [option_map]; [|exact Logic.I].
    destruct L as (L1 & L2 & L3 & L4). unfold lut_update_in, lut_create. cbn [l_q l_policy l_table l_fn l_in_s l_in_zp l_out_s l_out_zp].
    split; [exact L1|]. split; [exact L2|]. rewrite L1. apply table_wf; [apply G|exact L2].
Qed.
Lemma set_params_wf n s z : wf n -> wf (set_params n s z).
Proof. intros [G C L]. split; [exact G|exact C|exact L]. Qed.
Lemma set_policy_wf n p n' : wf n -> set_policy n p = Ok n' -> wf n'.
Proof.
  intros [G C L] E. destruct (set_policy_ok n p n' G E) as [G' I']. split; [exact G'| |].
  - unfold in_step in I'. destruct (n_tens n'); [apply I'|exact Logic.I].
  - unfold set_policy in E. destruct (n_tens n) as [t|]; [|discriminate]. destruct (shape_eqb _ _); [|discriminate].
    match type of E with Ok ?m = _ => assert (n' = m) by congruence end. subst n'. exact L.
Qed.
Lemma with_tensor_wf s z q fp : within_int32 q -> wf (NodeModel.with_tensor (node_new s z q) fp).
Proof.
  intros W. destruct (with_tensor_ok (node_new s z q) fp W) as [G I']. split; [exact G|reflexivity|exact Logic.I].
Qed.
Lemma with_lut_wf n f os oz : wf n -> wf (with_lut n f os oz).
Proof.
  intros [G C L]. split; [exact G|exact C|]. cbn [with_lut n_lut n_q]. unfold lut_new, lut_create.
  cbn [l_q l_policy l_table l_fn l_in_s l_in_zp l_out_s l_out_zp].
  assert (SH : nd_shape (get_base_rounding (nd_of_list 0%Q (float_activation (n_q n) f (n_scale n) (n_zp n))) os) = [code_count (n_q n)]).
  { unfold get_base_rounding. cbn [nd_map nd_shape nd_of_list]. now rewrite float_activation_length. }
  split; [reflexivity|]. split; [exact SH|]. apply table_wf; [apply G|exact SH].
Qed.
Lemma exec_wf fuel w0 w o : (forall j, wf (w j)) -> (forall j, n_q (w j) = n_q (w0 j)) -> tuning w0 o -> forall j, wf (exec fuel w o j).
Proof.
  intros W Q0 T j. destruct o; cbn [exec tuning] in *.
  - destruct (update fuel w i s z true) as [w'|] eqn:U; [|apply W]. revert j.
    apply (update_all fuel wf w i s z true w'); auto using set_params_wf, requantize_wf.
  - destruct (update fuel w i s z false) as [w'|] eqn:U; [|apply W]. revert j.
    apply (update_all fuel wf w i s z false w'); auto using set_params_wf, requantize_wf.
  - destruct (set_policy (w i) p) as [n|] eqn:E; cbn [lift]; [|apply W]. apply set_policy_wf in E; [|apply W].
    destruct (upd_cases w i j n) as [[_ ->]|[_ ->]]; [exact E|apply W].
  - unfold reset_rounding. destruct (n_tens (w i)) as [t|] eqn:TT; cbn [lift]; [|apply W].
    destruct (set_policy (w i) (t_og_policy t)) as [n|] eqn:E; cbn [lift]; [|apply W]. apply set_policy_wf in E; [|apply W].
    destruct (upd_cases w i j n) as [[_ ->]|[_ ->]]; [exact E|apply W].
  - match goal with |- wf (upd _ _ ?n _) => destruct (upd_cases w i j n) as [[_ ->]|[_ ->]] end; [|apply W].
    destruct (W i) as [G C L]. split; [exact G|exact C|]. cbn [set_lut n_lut n_q]. destruct (n_lut (w i)) as [l|]; cbn [option_map]; [|exact Logic.I].
    destruct L as (L1 & L2 & L3 & L4). cbn [lut_set_policy l_q l_policy l_table]. rewrite (Q0 i) in *. auto.
  - destruct T.
  - match goal with |- wf (upd _ _ ?n _) => destruct (upd_cases w i j n) as [[_ ->]|[_ ->]] end; [|apply W]. apply set_params_wf, W.
  - match goal with |- wf (upd _ _ ?n _) => destruct (upd_cases w i j n) as [[_ ->]|[_ ->]] end; [|apply W]. apply set_params_wf, W.
Qed.
Lemma core_q n n' : core n = core n' -> n_q n = n_q n'.
Proof. intros E. exact (f_equal (fun t => fst (fst t)) E). Qed.
Lemma run_keeps fuel w0 : forall os w, (forall j, wf (w j)) -> (forall j, core (w j) = core (w0 j)) -> Forall (tuning w0) os ->
  (forall j, wf (run fuel w os j)) /\ forall j, core (run fuel w os j) = core (w0 j).
Proof.
  induction os as [|o os IH]; intros w W C T; [split; assumption|]. inversion T as [|? ? T1 T2]; subst. cbn [run fold_left]. apply IH; [| |exact T2].
  - apply (exec_wf fuel w0); [exact W| |exact T1]. intros j. apply core_q, C.
  - intros j. rewrite exec_core; [apply C|]. intros i fn s z ->. exact T1.
Qed.

(** ** Layout of the store *)
Record layer_at (p : nat -> Q * Z) (w : world) (l : kdense) (n k : nat) : Prop := {
  la_k : exists t, option_map t_fp (n_tens (w k)) = Some t /\ kernel_is l n t /\ known (n_q (w k));
  la_b : exists t, option_map t_fp (n_tens (w (S k))) = Some t /\ bias_is l t /\ known (n_q (w (S k)));
  la_a : readable (n_q (w (S (S k))));
  la_t : is_table l = true -> n_q (w (S (S (S k)))) = n_q (w (S (S k))) /\
           lutcore (w (S (S k))) = Some (n_q (w (S (S k))), kd_fn l, fst (p (S (S (S k)))), snd (p (S (S (S k))))) }.
Fixpoint laid (p : nat -> Q * Z) (w : world) (n k : nat) (ls : list kdense) : Prop :=
  match ls with
  | [] => True
  | l :: r => layer_at p w l n k /\ laid p w (kd_units l) (S (S (S (S k)))) r
  end.
Lemma layer_at_core p w w' l n k : (forall j, core (w' j) = core (w j)) -> layer_at p w l n k -> layer_at p w' l n k.
Proof.
  intros C [A B R T].
  assert (Q1 : forall j, n_q (w' j) = n_q (w j)) by (intros j; apply core_q, C).
  assert (T1 : forall j, option_map t_fp (n_tens (w' j)) = option_map t_fp (n_tens (w j))) by (intros j; exact (f_equal (fun t => snd (fst t)) (C j))).
  assert (L1 : forall j, lutcore (w' j) = lutcore (w j)) by (intros j; exact (f_equal snd (C j))).
  split; rewrite ?Q1, ?T1, ?L1; assumption.
Qed.
Lemma laid_core p w w' : (forall j, core (w' j) = core (w j)) -> forall ls n k, laid p w n k ls -> laid p w' n k ls.
Proof.
  intros C ls. induction ls as [|l r IH]; intros n k H; [exact Logic.I|]. destruct H as [H1 H2]. split; [now apply (layer_at_core p w)|now apply IH].
Qed.

(** *** what the quantizer builds *)
Definition bare (n : node) : node := set_hooks n [].
Lemma bare_core n n' : bare n = bare n' -> core n = core n'.
Proof. intros E. exact (f_equal core E). Qed.
Lemma bare_subscribe w h j : bare (subscribe w h j) = bare (w j).
Proof.
  unfold subscribe. set (u1 := upd w (h_kernel h) _).
  assert (A : forall j, bare (u1 j) = bare (w j)).
  { intros i. unfold u1. match goal with |- bare (upd _ _ ?n _) = _ => destruct (upd_cases w (h_kernel h) i n) as [[-> ->]|[_ ->]] end; reflexivity. }
  match goal with |- bare (upd _ _ ?n _) = _ => destruct (upd_cases u1 (h_input h) j n) as [[-> ->]|[_ ->]] end; [|apply A].
  rewrite <- A. reflexivity.
Qed.
Definition add_node (sp : dense_spec) : node :=
  match s_act sp with Some (fn, on) => with_lut (set_hooks (s_bias_add sp) []) fn (n_scale on) (n_zp on) | None => set_hooks (s_bias_add sp) [] end.
Lemma add_dense_nodes st sp : let k := w_next st in let w' := w_nodes (add_dense st sp) in
  (forall j, (j < k)%nat -> bare (w' j) = bare (w_nodes st j)) /\
  bare (w' k) = bare (s_kernel sp) /\
  bare (w' (S k)) = NodeModel.with_tensor (node_new (n_scale (w_nodes st (w_in st)) * n_scale (s_kernel sp))%Q 0 (s_bias_q sp)) (s_bias sp) /\
  bare (w' (S (S k))) = bare (add_node sp) /\
  (forall fn on, s_act sp = Some (fn, on) -> bare (w' (S (S (S k)))) = bare on) /\
  (forall j, (S (S (S k)) < j)%nat -> bare (w' j) = bare (w_nodes st j)) /\
  (s_act sp = None -> bare (w' (S (S (S k)))) = bare (w_nodes st (S (S (S k))))).
Proof.
  cbv zeta. unfold add_dense. cbn [w_nodes]. set (k := w_next st). set (w := w_nodes st). fold (add_node sp).
  set (kn := set_hooks (s_kernel sp) []). set (bn := NodeModel.with_tensor _ (s_bias sp)).
  set (w2 := upd (upd (upd w k kn) (S k) bn) (S (S k)) (add_node sp)).
  set (w3 := match s_act sp with Some (_, on) => upd w2 (S (S (S k))) (set_hooks on []) | None => w2 end).
  assert (E : forall j, j <> S (S (S k)) -> w3 j = w2 j). { intros j H. unfold w3. destruct (s_act sp) as [[? ?]|]; [now apply upd_other|reflexivity]. }
  split; [|split; [|split; [|split; [|split; [|split]]]]].
  - intros j Hj. rewrite bare_subscribe, E by lia. unfold w2. rewrite !upd_other by lia. reflexivity.
  - rewrite bare_subscribe, E by lia. unfold w2. rewrite !upd_other by lia. rewrite upd_same. reflexivity.
  - rewrite bare_subscribe, E by lia. unfold w2. rewrite upd_other by lia. rewrite upd_same. reflexivity.
  - rewrite bare_subscribe, E by lia. unfold w2. now rewrite upd_same.
  - intros fn on H. rewrite bare_subscribe. unfold w3. rewrite H. rewrite upd_same. reflexivity.
  - intros j Hj. rewrite bare_subscribe, E by lia. unfold w2. rewrite !upd_other by lia. reflexivity.
  - intros H. rewrite bare_subscribe. unfold w3. rewrite H. unfold w2. rewrite !upd_other by lia. reflexivity.
Qed.
Lemma add_dense_next st sp : w_next (add_dense st sp) = S (S (S (S (w_next st)))).
Proof. reflexivity. Qed.
Lemma fold_dense_old : forall sps st j, (j < w_next st)%nat -> bare (w_nodes (fold_left add_dense sps st) j) = bare (w_nodes st j).
Proof.
  induction sps as [|sp sps IH]; intros st j H; [reflexivity|]. cbn [fold_left]. rewrite IH by (rewrite add_dense_next; lia). destruct (add_dense_nodes st sp) as (A & _). exact (A j H).
Qed.
Definition pars (n : node) : Q * Z := (n_scale n, n_zp n).
Lemma build_laid : forall ls sps n st, describe n ls sps ->
  let wF := w_nodes (fold_left add_dense sps st) in laid (fun j => pars (wF j)) wF n (w_next st) ls.
Proof.
  induction ls as [|l ls IH]; intros [|sp sps] n st D wF; try destruct D; [exact Logic.I|].
  destruct H as [(qk & fk & (sk & zk & CK) & KK & KI) (KB & BI) (qa & fa & (sa & za & CA) & RA) AC].
  split; [|exact (IH sps _ (add_dense st sp) H0)].
  set (k := w_next st).
  assert (OLD : forall j, (j < S (S (S (S k))))%nat -> bare (wF j) = bare (w_nodes (add_dense st sp) j)).
  { intros j Hj. apply (fold_dense_old sps (add_dense st sp)). exact Hj. }
  destruct (add_dense_nodes st sp) as (_ & A1 & A2 & A3 & A4 & _). fold k in A1, A2, A3, A4.
  rewrite <- OLD in A1, A2, A3 by lia.
  assert (QA : n_q (wF (S (S k))) = qa).
  { change (n_q (bare (wF (S (S k)))) = qa). rewrite A3. unfold add_node. destruct (s_act sp) as [[? ?]|]; cbn [bare set_hooks with_lut n_q]; rewrite CA; reflexivity. }
  assert (QS : n_q (s_bias_add sp) = qa) by (rewrite CA; reflexivity).
  split.
  - exists fk. split; [change (option_map t_fp (n_tens (bare (wF k))) = Some fk); rewrite A1, CK; reflexivity|]. split; [exact KI|].
    change (known (n_q (bare (wF k)))). rewrite A1, CK. exact KK.
  - exists (s_bias sp). split; [change (option_map t_fp (n_tens (bare (wF (S k)))) = Some (s_bias sp)); rewrite A2; reflexivity|]. split; [exact BI|].
    change (known (n_q (bare (wF (S k))))). rewrite A2. exact KB.
  - rewrite QA. exact RA.
  - intros T. destruct (s_act sp) as [[fn on]|] eqn:SA; [|congruence]. destruct AC as (_ & -> & (fo & so & zo & CO)).
    specialize (A4 _ _ eq_refl). rewrite <- OLD in A4 by lia.
    assert (PO : pars (wF (S (S (S k)))) = (n_scale on, n_zp on)).
    { change (pars (bare (wF (S (S (S k))))) = (n_scale on, n_zp on)). rewrite A4. reflexivity. }
    split.
    + rewrite QA. change (n_q (bare (wF (S (S (S k))))) = qa). rewrite A4, CO, QS. reflexivity.
    + change (lutcore (bare (wF (S (S k)))) = Some (n_q (wF (S (S k))), kd_fn l, fst (pars (wF (S (S (S k))))), snd (pars (wF (S (S (S k))))))).
      rewrite PO, QA, A3. unfold add_node. rewrite SA. cbn. now rewrite QS.
Qed.
Lemma bare_wf n : wf (bare n) <-> wf n.
Proof. split; intros [G C L]; (split; [exact G|exact C|exact L]). Qed.
Lemma add_dense_wf st sp n l : describes n l sp -> (forall j, wf (w_nodes st j)) -> forall j, wf (w_nodes (add_dense st sp) j).
Proof.
  intros [(qk & fk & (sk & zk & CK) & [KK _] & _) ([KB _] & _) (qa & fa & (sa & za & CA) & [RA _]) AC] W j.
  destruct (add_dense_nodes st sp) as (A0 & A1 & A2 & A3 & A4 & A5 & A6). set (k := w_next st) in *.
  apply bare_wf.
  destruct (Nat.lt_ge_cases j k) as [H|H]; [rewrite A0 by exact H; apply bare_wf, W|].
  destruct (Nat.eq_dec j k) as [->|N1]; [rewrite A1, CK; apply bare_wf, with_tensor_wf, KK|].
  destruct (Nat.eq_dec j (S k)) as [->|N2]; [rewrite A2; apply with_tensor_wf, KB|].
  destruct (Nat.eq_dec j (S (S k))) as [->|N3].
  { rewrite A3. apply bare_wf. unfold add_node. assert (X : wf (set_hooks (s_bias_add sp) [])) by (rewrite CA; apply (with_tensor_wf sa za qa fa), RA).
    destruct (s_act sp) as [[? ?]|]; [apply with_lut_wf, X|exact X]. }
  destruct (Nat.eq_dec j (S (S (S k)))) as [->|N4].
  { destruct (s_act sp) as [[fn on]|] eqn:SA; [|rewrite A6 by reflexivity; apply bare_wf, W].
    rewrite (A4 _ _ eq_refl). destruct AC as (_ & _ & (fo & so & zo & CO)). rewrite CO, CA. apply bare_wf, with_tensor_wf. exact (proj1 RA). }
  rewrite A5 by lia. apply bare_wf, W.
Qed.
Lemma build_wf : forall ls sps n st, describe n ls sps -> (forall j, wf (w_nodes st j)) -> forall j, wf (w_nodes (fold_left add_dense sps st) j).
Proof.
  induction ls as [|l ls IH]; intros [|sp sps] n st D W; try destruct D; [exact W|]. cbn [fold_left].
  eapply IH; [eassumption|]. eapply add_dense_wf; eassumption.
Qed.
Lemma describe_ok : forall ls sps n, describe n ls sps -> Forall spec_ok sps.
Proof.
  induction ls as [|l ls IH]; intros [|sp sps] n D; try destruct D; constructor; [|now apply (IH sps (kd_units l))].
  destruct H as [(qk & fk & (sk & zk & CK) & [KK _] & _) ([KB _] & _) (qa & fa & (sa & za & CA) & [[RA _] _]) AC].
  assert (X : forall s z q fp, within_int32 q -> good (NodeModel.with_tensor (node_new s z q) fp) /\ in_step (NodeModel.with_tensor (node_new s z q) fp)).
  { intros s z q fp W. exact (with_tensor_ok (node_new s z q) fp W). }
  unfold spec_ok. rewrite CK, CA in *. destruct (X sk zk qk fk KK), (X sa za qa fa RA). repeat (split; [assumption|]).
  destruct (s_act sp) as [[fn on]|]; [|exact Logic.I]. destruct AC as (_ & _ & (fo & so & zo & CO)). rewrite CO. apply X. exact RA.
Qed.

(** ** The exported file *)
Lemma lut_functions_table l : mem (upper (kd_act l)) LUT_FUNCTIONS = is_table l.
Proof. unfold mem, LUT_FUNCTIONS, is_table. cbn [existsb]. rewrite orb_false_r. reflexivity. Qed.
Lemma known_parse q : (exists s, parse_dtype s = Ok q) -> parse_dtype (grepr q) = Ok q.
Proof. intros [s E]. exact (proj2 (C06_str_roundtrip s q E)). Qed.
Lemma data_usable n : readable (n_q n) -> node_sane (data_json n) -> usable (data_json n).
Proof.
  intros [N K] [P Z0]. exists (n_q n). split; [exact (known_parse _ K)|]. split; [exact N|]. split; [exact P|]. apply (Z0 (n_q n)). exact (known_parse _ K).
Qed.
Definition code_rows (n : node) (r c : nat) : list (list Z) :=
  match n_tens n with Some t => map (fun j => map (fun i => nd_get (t_codes t) [j; i]) (seq 0 c)) (seq 0 r) | None => [] end.
Definition code_vec (n : node) (r : nat) : list Z :=
  match n_tens n with Some t => map (fun j => nd_get (t_codes t) [j]) (seq 0 r) | None => [] end.
Lemma weight_mat n t u c : wf n -> option_map t_fp (n_tens n) = Some t -> nd_shape t = [u; c] -> pn_tensor (weight_json n) = PMat (code_rows n u c).
Proof.
  intros [_ C _] E S0. unfold weight_json, code_rows. cbn [pn_tensor]. destruct (n_tens n) as [x|]; [|discriminate]. cbn [option_map] in E.
  assert (t_fp x = t) by congruence. unfold nd_rows. rewrite C, H, S0. reflexivity.
Qed.
Lemma weight_vec n t u : wf n -> option_map t_fp (n_tens n) = Some t -> nd_shape t = [u] -> pn_tensor (weight_json n) = PVec (code_vec n u).
Proof.
  intros [_ C _] E S0. unfold weight_json, code_vec. cbn [pn_tensor]. destruct (n_tens n) as [x|]; [|discriminate]. cbn [option_map] in E.
  assert (t_fp x = t) by congruence. unfold nd_rows. rewrite C, H, S0. reflexivity.
Qed.
Lemma code_rows_length n t r c : option_map t_fp (n_tens n) = Some t -> length (code_rows n r c) = r.
Proof. unfold code_rows. destruct (n_tens n); [|discriminate]. intros _. now rewrite map_length, seq_length. Qed.
Lemma code_rows_width n r c row : In row (code_rows n r c) -> length row = c.
Proof.
  unfold code_rows. destruct (n_tens n); [|intros []]. intros H. apply in_map_iff in H as (j & <- & _). now rewrite map_length, seq_length.
Qed.
Lemma code_vec_length n t r : option_map t_fp (n_tens n) = Some t -> length (code_vec n r) = r.
Proof. unfold code_vec. destruct (n_tens n); [|discriminate]. intros _. now rewrite map_length, seq_length. Qed.

Lemma export_fc_fits p w l n inp k : (forall j, wf (w j)) -> layer_at p w l n k -> layer_shaped n l -> usable (data_json (w inp)) ->
  tuned_ok (mkjop (str "FULLY_CONNECTED") (str "fully_connected " ++ kd_name l)
    (mkpb [data_json (w inp); weight_json (w k); weight_json (w (S k))] [data_json (w (S (S k)))])) ->
  fc_fits l (data_json (w inp)) (weight_json (w k)) (weight_json (w (S k))) (data_json (w (S (S k))))
    (code_rows (w k) (kd_units l) n) (code_vec (w (S k)) (kd_units l)).
Proof.
  intros W [(tk & EK & (SK & _) & _) (tb & EB & (SB & _) & _) RA _] (Hn & Hu & LK & _) (di & PD & ND & _) (AF & SN & NU).
  destruct (NU _ _ _ _ eq_refl) as (P & M).
  assert (TK := weight_mat (w k) tk _ _ (W k) EK SK). assert (TB := weight_vec (w (S k)) tb _ (W (S k)) EB SB).
  constructor.
  - exact TK.
  - exact TB.
  - exact (code_rows_length _ _ _ _ EK).
  - intros r Hr. rewrite LK. exact (code_rows_width _ _ _ _ Hr).
  - exact (code_vec_length _ _ _ EB).
  - exact P.
  - apply data_usable; [exact RA|]. apply SN. now left.
  - exact M.
  - destruct (AF _ _ _ _ _ _ di eq_refl TK TB PD) as (K & K1 & K2). exists di, K. split; [exact PD|]. split; [exact K1|].
    intros v Hv. specialize (K2 v Hv). assert (WD : width (code_rows (w k) (kd_units l) n) = length (kd_kernel l)).
    { unfold width. pose proof (code_rows_length (w k) tk (kd_units l) n EK) as L. destruct (code_rows (w k) (kd_units l) n) as [|r m] eqn:E; [cbn in L; lia|].
      cbn [hd]. rewrite LK. apply (code_rows_width (w k) (kd_units l) n). rewrite E. now left. }
    rewrite WD in K2. exact K2.
Qed.
Lemma export_table n o lt : wf n -> readable (n_q n) -> n_q o = n_q n -> n_lut n = Some lt ->
  (forall c, in_dtype (n_q n) c -> exists d, table_at (data_json n) c = Ok d /\ nth_error (l_table lt) (Z.to_nat (c - gmin (n_q n))) = Some d) /\
  table_ok (data_json n) (data_json o).
Proof.
  intros [G _ L] [N K] QO E. rewrite E in L. destruct L as (L1 & L2 & L3 & L4).
  assert (PQ : parse_dtype (grepr (n_q n)) = Ok (n_q n)) by (apply known_parse, K).
  assert (X : forall c, in_dtype (n_q n) c -> exists d, table_at (data_json n) c = Ok d /\ nth_error (l_table lt) (Z.to_nat (c - gmin (n_q n))) = Some d).
  { intros c [H1 H2]. set (i := Z.to_nat (c - gmin (n_q n))).
    assert (Hi : (i < length (l_table lt))%nat) by (rewrite L3; unfold code_count, i; lia).
    destruct (nth_error (l_table lt) i) as [d|] eqn:D; [|apply nth_error_None in D; lia].
    exists d. split; [|reflexivity]. unfold table_at, data_json. cbn [pn_lut]. rewrite E. cbn [option_map]. unfold lut_as_json, lut_from_node.
    cbn [lj_reduced lj_table lj_offset la_table la_offset lookup]. unfold lut_offset. rewrite L1.
    replace (c + - gmin (n_q n)) with (c - gmin (n_q n)) by lia.
    destruct (py_index_nonneg (l_table lt) (c - gmin (n_q n))) as (d' & D1 & D2); [unfold i in Hi; lia|].
    fold i in D1. assert (d' = d) by congruence. subst d'. exact D2. }
  split; [exact X|]. exists (n_q n), (n_q n). split; [exact PQ|]. split; [cbn [data_json pn_dtype]; rewrite QO; exact PQ|].
  intros c H. destruct (X c H) as (d & A & B). exists d. split; [exact A|]. apply L4. eapply nth_error_In, B.
Qed.
Lemma lutcore_some n q f os oz : lutcore n = Some (q, f, os, oz) -> exists lt, n_lut n = Some lt /\ l_fn lt = f /\ l_out_s lt = os /\ l_out_zp lt = oz.
Proof. unfold lutcore. destruct (n_lut n) as [lt|]; [|discriminate]. cbn [option_map]. intros E. exists lt. repeat split; congruence. Qed.

Lemma export_implements p w : (forall j, wf (w j)) -> forall ls n inp k, laid p w n k ls -> shaped n ls -> usable (data_json (w inp)) ->
  Forall tuned_ok (fst (export_layers w inp k ls)) ->
  implements ls (data_json (w inp)) (fst (export_layers w inp k ls)) (data_json (w (snd (export_layers w inp k ls)))).
Proof.
  intros W ls. induction ls as [|l ls IH]; intros n inp k LA Sh US OK; [constructor|].
  destruct LA as [LA LR]. apply shaped_layer in Sh as (SL & SR & Hn). cbn [export_layers] in *. rewrite lut_functions_table in *.
  destruct (is_table l) eqn:T; cbn [fst snd] in *.
  - inversion OK as [|? ? O1 OK1]; subst. inversion OK1 as [|? ? O2 OK2]; subst.
    assert (FF := export_fc_fits p w l n inp k W LA SL US O1).
    destruct (la_t _ _ _ _ _ LA T) as (QO & LC). destruct (lutcore_some _ _ _ _ _ LC) as (lt & EL & _).
    assert (UO : usable (data_json (w (S (S (S k)))))).
    { apply data_usable; [rewrite QO; apply (la_a _ _ _ _ _ LA)|]. apply (proj1 (proj2 O2)). now left. }
    eapply im_table; [exact T|exact FF| |exact UO| |].
    + unfold table_op. unfold is_table in T. apply orb_true_iff in T as [T|T]; apply chars_eqb_eq in T; rewrite T; [left|right]; vm_compute; reflexivity.
    + exact (proj2 (export_table (w (S (S k))) (w (S (S (S k)))) lt (W _) (la_a _ _ _ _ _ LA) QO EL)).
    + exact (IH (kd_units l) (S (S (S k))) (S (S (S (S k)))) LR SR UO OK2).
  - inversion OK as [|? ? O1 OK1]; subst.
    assert (FF := export_fc_fits p w l n inp k W LA SL US O1).
    eapply im_fc; [exact T|exact FF|]. exact (IH (kd_units l) (S (S k)) (S (S (S (S k)))) LR SR (ff_out _ _ _ _ _ _ _ FF) OK1).
Qed.

(** ** C80 *)
(** Build the nodes of any dense network (any calibration result), tune it by any history of parameter updates, rounding policies
    and resets (with or without requantization, on any node including the biases), and write it out.  If the numbers of the file
    pass the check, the certificate of C79 applies to it: it loads, runs, and every output is within the computed bound. *)
Theorem C80_tuned_file : forall ls n input qi fi specs fuel os, (0 < n)%nat -> shaped n ls ->
  created input qi fi -> readable qi -> describe n ls specs ->
  let st := build_net input specs in
  let j := export_net (run fuel (w_nodes st) os) ls in
  Forall (tuning (w_nodes st)) os -> Forall tuned_ok (jt_graph j) ->
  exists qop ops out, dense_file ls n j qop ops out.
Proof.
  intros ls n input qi fi specs fuel os Hn Sh (s0 & z0 & CI) RI D st j T OK.
  assert (W0 : forall j, wf (w_nodes st j)).
  { apply (build_wf ls specs n); [exact D|]. intros i. cbn [start_net w_nodes]. rewrite CI. apply bare_wf, with_tensor_wf. exact (proj1 (proj1 RI)). }
  assert (LA := build_laid ls specs n (start_net input) D). fold st in LA. cbv zeta in LA. fold (build_net input specs) in LA. fold st in LA. cbn [start_net w_next] in LA.
  destruct (run_keeps fuel (w_nodes st) os (w_nodes st) W0 (fun _ => eq_refl) T) as [W C].
  set (w := run fuel (w_nodes st) os) in *.
  apply (laid_core _ _ w C) in LA.
  assert (Q0 : n_q (w 0%nat) = qi).
  { rewrite (core_q _ _ (C 0%nat)). change (n_q (bare (w_nodes st 0%nat)) = qi). unfold st, build_net. rewrite fold_dense_old by (cbn; lia).
    cbn [start_net w_nodes]. rewrite CI. reflexivity. }
  unfold j, export_net in OK. cbn [jt_graph] in OK. assert (OQ := Forall_inv OK). assert (OK1 := Forall_inv_tail OK). apply Forall_app_inv in OK1 as [OK1 _].
  assert (US : usable (data_json (w 0%nat))).
  { apply data_usable; [rewrite Q0; exact RI|]. apply (proj1 (proj2 OQ)). now left. }
  eexists _, _, _. constructor; [exact Hn|exact Sh|reflexivity|reflexivity|reflexivity|reflexivity|].
  exists (data_json (w 0%nat)). split; [exact US|]. split; [reflexivity|].
  exact (export_implements _ w W ls n 0 1 LA Sh US OK1).
Qed.

(** ** Sessions: equalizers and annealers *)
Definition kept (next : nat) (w0 w : world) : Prop := (forall j, wf (w j)) /\ forall j, (j < next)%nat -> core (w j) = core (w0 j).
Lemma kept_update fuel next w0 w i s z rq w' : kept next w0 w -> update fuel w i s z rq = Ok w' -> kept next w0 w'.
Proof.
  intros [W C] U. split.
  - apply (update_all fuel wf w i s z rq w'); auto using set_params_wf, requantize_wf.
  - intros j Hj. rewrite (update_core _ _ _ _ _ _ _ j U). apply C, Hj.
Qed.
Lemma kept_move fuel next w0 : forall ts w ds w', kept next w0 w -> move fuel w ts ds = Ok w' -> kept next w0 w'.
Proof.
  induction ts as [|i ts IH]; intros w ds w' K E; cbn [move] in E; [assert (w' = w) by congruence; now subst|].
  unfold move_one in E. destruct (eq_scale _ _ _) as [s|]; [|discriminate]. cbn [rbind] in E.
  destruct (update fuel w i s _ true) as [w1|] eqn:U; [|discriminate]. cbn [rbind] in E.
  exact (IH _ _ _ (kept_update _ _ _ _ _ _ _ _ _ K U) E).
Qed.
Lemma kept_copy fuel next w0 rq : forall to from w w', kept next w0 w -> copy fuel w to from rq = Ok w' -> kept next w0 w'.
Proof.
  induction to as [|t to IH]; intros [|f from] w w' K E; cbn [copy] in E; try (assert (w' = w) by congruence; now subst).
  destruct (update fuel w t _ _ rq) as [w1|] eqn:U; [|discriminate]. cbn [rbind] in E.
  exact (IH _ _ _ (kept_update _ _ _ _ _ _ _ _ _ K U) E).
Qed.
Lemma kept_deepcopy next w0 : forall ts base w, (next <= base)%nat -> kept next w0 w -> kept next w0 (deepcopy w base ts).
Proof.
  induction ts as [|i ts IH]; intros base w H K; cbn [deepcopy]; [exact K|]. apply IH; [lia|]. destruct K as [W C]. split.
  - intros j. destruct (upd_cases w base j (w i)) as [[_ ->]|[_ ->]]; apply W.
  - intros j Hj. rewrite upd_other by lia. apply C, Hj.
Qed.
Lemma kept_bfs_loop fuel cost next w0 ts cs max : forall turns ds st st', kept next w0 (b_w st) ->
  bfs_loop fuel cost ts cs max turns ds st = Ok (Some st') -> kept next w0 (b_w st').
Proof.
  induction turns as [|t IH]; intros ds st st' K E; cbn [bfs_loop] in E; [discriminate|].
  unfold bfs_step in E. destruct (move fuel (b_w st) ts (ds 0%nat)) as [w1|] eqn:M; [|discriminate]. cbn [rbind] in E.
  pose proof (kept_move _ _ _ _ _ _ _ K M) as K1.
  assert (X : exists st1, kept next w0 (b_w st1) /\
     (if (max <? b_retries st1)%nat then Ok (Some st1) else bfs_loop fuel cost ts cs max t (fun k => ds (S k)) st1) = Ok (Some st')).
  { destruct (Qltb (cost w1) (b_best st)).
    - destruct (copy fuel w1 cs ts false) as [w2|] eqn:CP; [|discriminate]. cbn [rbind] in E. exists (mkbfs w2 (cost w1) 0 (cost w1 :: b_seen st)). split; [exact (kept_copy _ _ _ _ _ _ _ _ K1 CP)|exact E].
    - destruct (copy fuel w1 ts cs false) as [w2|] eqn:CP; [|discriminate]. cbn [rbind] in E. exists (mkbfs w2 (b_best st) (S (b_retries st)) (cost w1 :: b_seen st)). split; [exact (kept_copy _ _ _ _ _ _ _ _ K1 CP)|exact E]. }
  clear E. destruct X as (st1 & K2 & E). destruct (max <? b_retries st1)%nat; [assert (st' = st1) by congruence; now subst|].
  exact (IH _ _ _ K2 E).
Qed.
Lemma kept_bfs fuel cost next w0 w ts max turns ds w' best seen : kept next w0 w ->
  bfs_optimize fuel cost w next ts max turns ds = Ok (Some (w', best, seen)) -> kept next w0 w'.
Proof.
  intros K E. unfold bfs_optimize in E. destruct (bfs_loop _ _ _ _ _ _ _ _) as [[st|]|] eqn:L; cbn [rbind] in E; try discriminate.
  destruct (copy fuel (b_w st) ts (seq next (length ts)) true) as [w2|] eqn:CP; [|discriminate]. cbn [rbind] in E.
  assert (w' = w2) by congruence. subst w2. refine (kept_copy _ _ _ _ _ _ _ _ _ CP).
  refine (kept_bfs_loop _ _ _ _ _ _ _ _ _ _ _ _ L). cbn [bfs_init b_w]. apply kept_deepcopy; [lia|exact K].
Qed.
Lemma kept_pan_loop fuel cost next w0 : forall steps ds acc p p', kept next w0 (p_w p) -> (next <= p_next p)%nat ->
  pan_loop fuel cost steps ds acc p = Ok p' -> kept next w0 (p_w p') /\ (next <= p_next p')%nat.
Proof.
  induction steps as [|n IH]; intros ds acc p p' K N E; cbn [pan_loop] in E; [assert (p' = p) by congruence; subst; now split|].
  unfold pan_step, copy_state in E. destruct (move fuel (p_w p) (p_st p) (ds 0%nat)) as [w1|] eqn:M; [|discriminate]. cbn [rbind] in E.
  pose proof (kept_move _ _ _ _ _ _ _ K M) as K1. cbv zeta in E.
  destruct (Qltb 0 (cost w1 - p_prevE p) && negb (acc 0%nat))%bool; cbn [rbind] in E.
  - refine (IH _ _ _ _ _ _ E); cbn [p_w p_next]; [apply kept_deepcopy; assumption|lia].
  - destruct (Qltb (cost w1) (p_bestE p)); cbn [rbind] in E.
    + refine (IH _ _ _ _ _ _ E); cbn [p_w p_next]; [|lia]. apply kept_deepcopy; [lia|]. apply kept_deepcopy; assumption.
    + refine (IH _ _ _ _ _ _ E); cbn [p_w p_next]; [apply kept_deepcopy; assumption|lia].
Qed.
Lemma kept_pan fuel cost next w0 steps w ts ds acc w' b e : kept next w0 w ->
  pan_optimize fuel cost steps w next ts ds acc = Ok (w', b, e) -> kept next w0 w'.
Proof.
  intros K E. unfold pan_optimize in E. destruct (pan_loop _ _ _ _ _ _) as [p|] eqn:L; [|discriminate]. cbn [rbind copy_state] in E.
  assert (w' = deepcopy (p_w p) (p_next p) (p_best p)) by congruence. subst w'.
  destruct (kept_pan_loop fuel cost next w0 steps ds acc (pan_init cost w next ts) p) as [A B]; [| |exact L|].
  - cbn [pan_init copy_state p_w]. apply kept_deepcopy; [lia|]. apply kept_deepcopy; [lia|exact K].
  - cbn [pan_init copy_state p_next]. lia.
  - apply kept_deepcopy; assumption.
Qed.
Lemma session_kept w0 next w : (forall j, wf (w0 j)) -> session w0 next w -> kept next w0 w.
Proof.
  intros W0 H. induction H as [|w fuel o _ IH T|w fuel cost ts max turns ds w' best seen _ IH E|w fuel cost steps ts ds acc w' b e _ IH E].
  - now split.
  - destruct IH as [W C]. split.
    + apply (exec_wf fuel w); [exact W|reflexivity|exact T].
    + intros j Hj. rewrite exec_core; [apply C, Hj|]. intros i fn s z ->. exact T.
  - exact (kept_bfs _ _ _ _ _ _ _ _ _ _ _ _ IH E).
  - exact (kept_pan _ _ _ _ _ _ _ _ _ _ _ _ IH E).
Qed.
Lemma laid_kept p w w' : forall ls n k next, (k + 4 * length ls <= next)%nat -> (forall j, (j < next)%nat -> core (w' j) = core (w j)) ->
  laid p w n k ls -> laid p w' n k ls.
Proof.
  induction ls as [|l r IH]; intros n k next H C L; [exact Logic.I|]. destruct L as [L1 L2]. cbn [length] in H. split; [|apply (IH _ _ next); [lia|exact C|exact L2]].
  destruct L1 as [A B R T].
  assert (Q1 : forall j, (j < next)%nat -> n_q (w' j) = n_q (w j)) by (intros j Hj; apply core_q, C, Hj).
  assert (T1 : forall j, (j < next)%nat -> option_map t_fp (n_tens (w' j)) = option_map t_fp (n_tens (w j))) by (intros j Hj; exact (f_equal (fun t => snd (fst t)) (C j Hj))).
  assert (LL : forall j, (j < next)%nat -> lutcore (w' j) = lutcore (w j)) by (intros j Hj; exact (f_equal snd (C j Hj))).
  split; rewrite ?Q1, ?T1, ?LL by lia; assumption.
Qed.
(** The same for whole tuning sessions (equalizer runs, annealer runs, rounding policies, manual updates in any order). *)
Theorem C80_session_file : forall ls n input qi fi specs w, (0 < n)%nat -> shaped n ls ->
  created input qi fi -> readable qi -> describe n ls specs ->
  let st := build_net input specs in
  session (w_nodes st) (4 * length ls + 1) w ->
  Forall tuned_ok (jt_graph (export_net w ls)) ->
  exists qop ops out, dense_file ls n (export_net w ls) qop ops out.
Proof.
  intros ls n input qi fi specs w Hn Sh (s0 & z0 & CI) RI D st SS OK.
  assert (W0 : forall j, wf (w_nodes st j)).
  { apply (build_wf ls specs n); [exact D|]. intros i. cbn [start_net w_nodes]. rewrite CI. apply bare_wf, with_tensor_wf. exact (proj1 (proj1 RI)). }
  assert (LA := build_laid ls specs n (start_net input) D). fold st in LA. cbv zeta in LA. fold (build_net input specs) in LA. fold st in LA. cbn [start_net w_next] in LA.
  destruct (session_kept _ _ _ W0 SS) as [W C].
  apply (laid_kept _ _ w _ _ _ (4 * length ls + 1)) in LA; [|lia|exact C].
  assert (Q0 : n_q (w 0%nat) = qi).
  { rewrite (core_q _ _ (C 0%nat ltac:(lia))). change (n_q (bare (w_nodes st 0%nat)) = qi). unfold st, build_net. rewrite fold_dense_old by (cbn; lia).
    cbn [start_net w_nodes]. rewrite CI. reflexivity. }
  unfold export_net in OK. cbn [jt_graph] in OK. assert (OQ := Forall_inv OK). assert (OK1 := Forall_inv_tail OK). apply Forall_app_inv in OK1 as [OK1 _].
  assert (US : usable (data_json (w 0%nat))).
  { apply data_usable; [rewrite Q0; exact RI|]. apply (proj1 (proj2 OQ)). now left. }
  eexists _, _, _. constructor; [exact Hn|exact Sh|reflexivity|reflexivity|reflexivity|reflexivity|].
  exists (data_json (w 0%nat)). split; [exact US|]. split; [reflexivity|].
  exact (export_implements _ w W ls n 0 1 LA Sh US OK1).
Qed.

(** ** Error of the tuned file in terms of its scales *)
Definition unit_at (p : nd Q) : Prop := forall i, valid_idx (nd_shape p) i = true -> (0 <= nd_get p i <= 1)%Q.
Record tidy (n : node) : Prop := {
  ti_wf : wf n;
  ti_step : in_step n;
  ti_pol : match n_tens n with Some t => unit_at (t_policy t) /\ unit_at (t_og_policy t) | None => True end;
  ti_lut : match n_lut n with
           | Some l => unit_at (l_policy l) /\
               exists p, nd_shape p = [code_count (n_q n)] /\ unit_at p /\
                 l_table l = create_LUT (n_q n) (l_fn l) (n_scale n) (n_zp n) (l_out_s l) (l_out_zp l) (Some p)
           | None => True
           end }.
Lemma base_unit t s : unit_at (get_base_rounding t s).
Proof.
  intros i _. unfold get_base_rounding. cbn [nd_map nd_get]. unfold base_rounding1. destruct (Qlt_le_dec _ _); split; discriminate.
Qed.
Lemma requantize_tidy n s z : tidy n -> tidy (requantize (set_params n s z)).
Proof.
  intros [W _ P L]. apply (set_params_wf n s z) in W. pose proof (requantize_wf _ W) as W'. split; [exact W'|apply requantize_ok, W| |].
  - unfold requantize. cbn [set_lut set_tens set_params n_tens]. destruct (n_tens n); cbn [option_map t_policy t_og_policy]; [exact P|exact Logic.I].
  - pose proof (wf_lut _ W) as WL. cbn [set_params n_lut n_q] in WL. unfold requantize. cbn [set_lut set_tens set_params n_lut n_q n_scale n_zp].
    destruct (n_lut n) as [l|]; cbn [option_map]; [|exact Logic.I].
    destruct WL as (L1 & L2 & _). unfold lut_update_in, lut_create. cbn [l_q l_policy l_table l_fn l_in_s l_in_zp l_out_s l_out_zp].
    split; [apply L|]. exists (l_policy l). split; [exact L2|]. split; [apply L|]. now rewrite L1.
Qed.
Lemma set_policy_tidy n p n' : tidy n -> unit_at p -> set_policy n p = Ok n' -> tidy n'.
Proof.
  intros [W _ P L] U E. pose proof (set_policy_wf n p n' W E) as W'. split; [exact W'|exact (proj2 (set_policy_ok n p n' (wf_good _ W) E))| |].
  - unfold set_policy in E. destruct (n_tens n) as [t|]; [|discriminate]. destruct (shape_eqb _ _); [|discriminate].
    match type of E with Ok ?m = _ => assert (n' = m) by congruence end. subst n'. cbn. split; [exact U|apply P].
  - unfold set_policy in E. destruct (n_tens n) as [t|]; [|discriminate]. destruct (shape_eqb _ _); [|discriminate].
    match type of E with Ok ?m = _ => assert (n' = m) by congruence end. subst n'. exact L.
Qed.
Lemma with_tensor_tidy s z q fp : within_int32 q -> tidy (NodeModel.with_tensor (node_new s z q) fp).
Proof.
  intros W. split; [now apply with_tensor_wf|exact (proj2 (with_tensor_ok (node_new s z q) fp W))|split; apply base_unit|exact Logic.I].
Qed.
Lemma with_lut_tidy n f os oz : tidy n -> tidy (with_lut n f os oz).
Proof.
  intros [W ST P L]. pose proof (with_lut_wf n f os oz W) as W'. split; [exact W'|exact ST|exact P|].
  pose proof (wf_lut _ W') as WL. cbn [with_lut n_lut n_q] in WL |- *. unfold lut_new, lut_create in *.
  cbn [l_q l_policy l_table l_fn l_in_s l_in_zp l_out_s l_out_zp with_lut n_scale n_zp] in *. split; [apply base_unit|].
  eexists. split; [exact (proj1 (proj2 WL))|]. split; [apply base_unit|]. reflexivity.
Qed.
Lemma bare_tidy n : tidy (bare n) <-> tidy n.
Proof. split; intros [W A B C]; (split; [now apply bare_wf|exact A|exact B|exact C]). Qed.
Lemma exec_tidy fuel w0 w o : (forall j, tidy (w j)) -> (forall j, n_q (w j) = n_q (w0 j)) -> tuning w0 o -> updating o -> unit_policy o ->
  forall j, tidy (exec fuel w o j).
Proof.
  intros W Q0 T UP UN j. destruct o; cbn [exec tuning updating unit_policy] in *; try (destruct UP; fail).
  - destruct (update fuel w i s z true) as [w'|] eqn:U; [|apply W]. revert j.
    apply (update_all fuel tidy w i s z true w'); auto using requantize_tidy.
  - destruct (set_policy (w i) p) as [n|] eqn:E; cbn [lift]; [|apply W]. apply set_policy_tidy in E; [|apply W|exact UN].
    destruct (upd_cases w i j n) as [[_ ->]|[_ ->]]; [exact E|apply W].
  - unfold reset_rounding. destruct (n_tens (w i)) as [t|] eqn:TT; cbn [lift]; [|apply W].
    destruct (set_policy (w i) (t_og_policy t)) as [n|] eqn:E; cbn [lift]; [|apply W].
    assert (UO : unit_at (t_og_policy t)) by (pose proof (ti_pol _ (W i)) as X; rewrite TT in X; apply X).
    apply set_policy_tidy in E; [|apply W|exact UO].
    destruct (upd_cases w i j n) as [[_ ->]|[_ ->]]; [exact E|apply W].
  - assert (WW := exec_wf fuel w0 w (OLutPolicy i p) (fun j => ti_wf _ (W j)) Q0 T j). cbn [exec] in WW. revert WW.
    match goal with |- _ -> tidy (upd _ _ ?n _) => destruct (upd_cases w i j n) as [[_ ->]|[_ ->]] end; [|intros _; apply W]. intros WW.
    destruct (W i) as [_ A B C]. split; [exact WW|exact A|exact B|]. cbn [set_lut n_lut n_q n_scale n_zp]. destruct (n_lut (w i)) as [l|]; cbn [option_map]; [|exact Logic.I].
    destruct C as (_ & C). split; [exact UN|exact C].
  - destruct T.
Qed.
Definition tuning_step (w : world) (o : op) : Prop := tuning w o /\ updating o /\ unit_policy o.
Lemma run_tidy fuel w0 : forall os w, (forall j, tidy (w j)) -> (forall j, core (w j) = core (w0 j)) -> Forall (tuning_step w0) os ->
  forall j, tidy (run fuel w os j).
Proof.
  induction os as [|o os IH]; intros w W C T; [exact W|]. inversion T as [|? ? (T1 & T2 & T3) TR]; subst. cbn [run fold_left]. apply IH; [| |exact TR].
  - apply (exec_tidy fuel w0); [exact W|intros j; apply core_q, C|assumption..].
  - intros j. rewrite exec_core; [apply C|]. intros i fn s z ->. exact T1.
Qed.
Lemma add_dense_tidy st sp n l : describes n l sp -> (forall j, tidy (w_nodes st j)) -> forall j, tidy (w_nodes (add_dense st sp) j).
Proof.
  intros [(qk & fk & (sk & zk & CK) & [KK _] & _) ([KB _] & _) (qa & fa & (sa & za & CA) & [RA _]) AC] W j.
  destruct (add_dense_nodes st sp) as (A0 & A1 & A2 & A3 & A4 & A5 & A6). set (k := w_next st) in *.
  apply bare_tidy.
  destruct (Nat.lt_ge_cases j k) as [H|H]; [rewrite A0 by exact H; apply bare_tidy, W|].
  destruct (Nat.eq_dec j k) as [->|N1]; [rewrite A1, CK; apply bare_tidy, with_tensor_tidy, KK|].
  destruct (Nat.eq_dec j (S k)) as [->|N2]; [rewrite A2; apply with_tensor_tidy, KB|].
  destruct (Nat.eq_dec j (S (S k))) as [->|N3].
  { rewrite A3. apply bare_tidy. unfold add_node. assert (X : tidy (set_hooks (s_bias_add sp) [])) by (rewrite CA; apply (with_tensor_tidy sa za qa fa), RA).
    destruct (s_act sp) as [[? ?]|]; [apply with_lut_tidy, X|exact X]. }
  destruct (Nat.eq_dec j (S (S (S k)))) as [->|N4].
  { destruct (s_act sp) as [[fn on]|] eqn:SA; [|rewrite A6 by reflexivity; apply bare_tidy, W].
    rewrite (A4 _ _ eq_refl). destruct AC as (_ & _ & (fo & so & zo & CO)). rewrite CO, CA. apply bare_tidy, with_tensor_tidy. exact (proj1 RA). }
  rewrite A5 by lia. apply bare_tidy, W.
Qed.
Lemma build_tidy : forall ls sps n st, describe n ls sps -> (forall j, tidy (w_nodes st j)) -> forall j, tidy (w_nodes (fold_left add_dense sps st) j).
Proof.
  induction ls as [|l ls IH]; intros [|sp sps] n st D W; try destruct D; [exact W|]. cbn [fold_left].
  eapply IH; [eassumption|]. eapply add_dense_tidy; eassumption.
Qed.
(** the bias hooks of the layers *)
Fixpoint hooked (hs : list hook) (inp k : nat) (ls : list kdense) : Prop :=
  match ls with
  | [] => True
  | l :: r => In (mkhook (S k) k inp) hs /\ hooked hs (if is_table l then S (S (S k)) else S (S k)) (S (S (S (S k)))) r
  end.
Lemma fold_layers_in : forall sps st h, In h (w_layers st) -> In h (w_layers (fold_left add_dense sps st)).
Proof.
  induction sps as [|sp sps IH]; intros st h H; [exact H|]. cbn [fold_left]. apply IH. unfold add_dense. cbn [w_layers]. apply in_app_iff. now left.
Qed.
Lemma build_hooked : forall ls sps n st, describe n ls sps -> hooked (w_layers (fold_left add_dense sps st)) (w_in st) (w_next st) ls.
Proof.
  induction ls as [|l ls IH]; intros [|sp sps] n st D; try destruct D; [exact Logic.I|]. cbn [fold_left hooked]. split.
  - apply fold_layers_in. unfold add_dense. cbn [w_layers]. apply in_app_iff. right. now left.
  - pose proof (IH sps _ (add_dense st sp) H0) as X. rewrite add_dense_next in X.
    assert (WI : w_in (add_dense st sp) = if is_table l then S (S (S (w_next st))) else S (S (w_next st))).
    { pose proof (de_act _ _ _ H) as AC. unfold add_dense. cbn [w_in]. destruct (s_act sp) as [[fn on]|]; [destruct AC as (-> & _)|rewrite AC]; reflexivity. }
    rewrite WI in X. exact X.
Qed.

(** one code *)
Lemma code_close q x s z p : within_int32 q -> (0 < s)%Q -> (0 <= p <= 1)%Q ->
  (s * inject_Z (gmin q - z) <= x <= s * inject_Z (gmax q - z))%Q -> (Qabs (s * inject_Z (code_of q x s z p - z) - x) <= s)%Q.
Proof.
  intros W P U [B1 B2]. unfold code_of. set (y := real_code x s z).
  assert (XY : (x == s * (y - inject_Z z))%Q) by (unfold y, real_code; field; lra).
  assert (Y1 : (inject_Z (gmin q) <= y)%Q).
  { apply (Qmult_le_l _ _ s P). rewrite inject_Z_minus in B1. nra. }
  assert (Y2 : (y <= inject_Z (gmax q))%Q).
  { apply (Qmult_le_l _ _ s P). rewrite inject_Z_minus in B2. nra. }
  set (c := clamp _ _ _).
  assert (K : (Qabs (inject_Z c - y) <= 1)%Q).
  { destruct (Qfloor_bounds (y + p)) as [F1 F2]. set (fl := Qfloor (y + p)) in *.
    assert (F3 : gmin q <= fl). { assert (inject_Z (gmin q) < inject_Z (fl + 1))%Q by (rewrite inject_Z_plus; change (inject_Z 1) with 1%Q; lra). rewrite <- Zlt_Qlt in H. lia. }
    assert (C : c = fl \/ (c = gmax q /\ gmax q < fl)).
    { unfold c, clamp. destruct (fl <? gmin q) eqn:A, (gmax q <? fl) eqn:B; lia. }
    apply Qabs_Qle_condition. destruct C as [-> | [-> C]]; [lra|].
    assert (inject_Z (gmax q) + 1 <= inject_Z fl)%Q. { change 1%Q with (inject_Z 1). rewrite <- inject_Z_plus, <- Zle_Qle. lia. }
    lra. }
  setoid_replace (s * inject_Z (c - z) - x)%Q with (s * (inject_Z c - y))%Q by (rewrite XY, inject_Z_minus; ring).
  rewrite Qabs_Qmult, (Qabs_pos s) by lra. rewrite <- (Qmult_1_r s) at 2. apply Qmult_le_l; assumption.
Qed.
Lemma reach_bounds n q x : parse_dtype (pn_dtype n) = Ok q -> reaches n x ->
  (pn_scale n * inject_Z (gmin q - pn_zp n) <= x <= pn_scale n * inject_Z (gmax q - pn_zp n))%Q.
Proof. intros P [A B]. rewrite (bottom_eq n q P) in A. rewrite (top_eq n q P) in B. split; assumption. Qed.
Lemma real_of_comp n c x x' : (x == x')%Q -> (Qabs (real_of n c - x) == Qabs (real_of n c - x'))%Q.
Proof. intros E. now rewrite E. Qed.
Lemma code_rows_nth n t u c j i : n_tens n = Some t -> (j < u)%nat -> (i < c)%nat -> nth i (nth j (code_rows n u c) []) 0 = nd_get (t_codes t) [j; i].
Proof.
  intros E Hj Hi. unfold code_rows. rewrite E.
  set (row := fun j => map (fun i => nd_get (t_codes t) [j; i]) (seq 0 c)).
  rewrite nth_indep with (d' := row 0%nat) by (rewrite map_length, seq_length; exact Hj). rewrite map_nth, seq_nth by exact Hj. unfold row.
  rewrite nth_indep with (d' := nd_get (t_codes t) [(0 + j)%nat; 0%nat]) by (rewrite map_length, seq_length; exact Hi).
  rewrite (map_nth (fun i => nd_get (t_codes t) [(0 + j)%nat; i])), seq_nth by exact Hi. reflexivity.
Qed.
Lemma code_vec_nth n t u j : n_tens n = Some t -> (j < u)%nat -> nth j (code_vec n u) 0 = nd_get (t_codes t) [j].
Proof.
  intros E Hj. unfold code_vec. rewrite E. rewrite nth_indep with (d' := nd_get (t_codes t) [0%nat]) by (rewrite map_length, seq_length; exact Hj).
  rewrite (map_nth (fun j => nd_get (t_codes t) [j])), seq_nth by exact Hj. reflexivity.
Qed.
Lemma valid2 u c j i : (j < u)%nat -> (i < c)%nat -> valid_idx [u; c] [j; i] = true.
Proof. intros A B. cbn [valid_idx]. apply Nat.ltb_lt in A, B. now rewrite A, B. Qed.
Lemma valid1 u j : (j < u)%nat -> valid_idx [u] [j] = true.
Proof. intros A. cbn [valid_idx]. apply Nat.ltb_lt in A. now rewrite A. Qed.
(** kernels, biases and tables of the tuned file differ from the float ones by at most one step *)
Lemma tidy_kernel p w l n k : tidy (w k) -> layer_at p w l n k -> length (kd_kernel l) = n -> (0 < n_scale (w k))%Q ->
  (forall j c, (j < kd_units l)%nat -> (c < length (kd_kernel l))%nat -> reaches (weight_json (w k)) (nth c (column j (kd_kernel l)) 0%Q)) ->
  (kernel_err l (weight_json (w k)) (code_rows (w k) (kd_units l) n) <= n_scale (w k))%Q.
Proof.
  intros [[[WI G] _ _] ST PO _] [(tk & EK & (SK & KV) & KQ) _ _ _] LK P R. apply kernel_err_le; [lra|]. intros j i Hj Hi. rewrite LK in Hi.
  specialize (R j i Hj ltac:(lia)). unfold in_step in ST. destruct (n_tens (w k)) as [t|] eqn:T; [|discriminate]. cbn [option_map] in EK.
  assert (t_fp t = tk) by congruence. subst tk. destruct ST as [_ ST].
  assert (V : valid_idx (nd_shape (t_fp t)) [j; i] = true) by (rewrite SK; now apply valid2).
  rewrite (code_rows_nth _ t) by assumption. rewrite (real_of_comp _ _ _ _ (Qeq_sym _ _ (KV j i Hj Hi))). unfold real_of. rewrite (ST _ V). cbn [weight_json pn_scale pn_zp].
  apply code_close; [exact WI|exact P|apply PO; destruct G as [G _]; rewrite G; exact V|].
  apply (reach_bounds _ (n_q (w k))) in R; [|exact (known_parse _ (proj2 KQ))]. cbn [weight_json pn_scale pn_zp] in R. rewrite (KV j i Hj Hi). exact R.
Qed.
Lemma tidy_bias p w l n k inp : tidy (w (S k)) -> layer_at p w l n k -> bias_ok w (mkhook (S k) k inp) -> (0 < n_scale (w k))%Q -> (0 < n_scale (w inp))%Q ->
  (forall j, (j < kd_units l)%nat -> reaches (weight_json (w (S k))) (bias_at l j)) ->
  (bias_err l (data_json (w inp)) (weight_json (w k)) (code_vec (w (S k)) (kd_units l)) <= n_scale (w inp) * n_scale (w k))%Q.
Proof.
  intros [[[WI G] _ _] ST PO _] [_ (tb & EB & (SB & BV) & BQ) _ _] (B1 & B2 & _) P1 P2 R.
  cbn [h_bias h_kernel h_input] in B1, B2. assert (PP : (0 < n_scale (w inp) * n_scale (w k))%Q) by nra.
  apply bias_err_le; [lra|]. intros j Hj. specialize (R j Hj). unfold in_step in ST. destruct (n_tens (w (S k))) as [t|] eqn:T; [|discriminate]. cbn [option_map] in EB.
  assert (t_fp t = tb) by congruence. subst tb. destruct ST as [_ ST].
  assert (V : valid_idx (nd_shape (t_fp t)) [j] = true) by (rewrite SB; now apply valid1).
  rewrite (code_vec_nth _ t) by assumption. rewrite (ST _ V). cbn [data_json weight_json pn_scale].
  apply (reach_bounds _ (n_q (w (S k)))) in R; [|exact (known_parse _ (proj2 BQ))]. cbn [weight_json pn_scale pn_zp] in R.
  assert (PS : (0 < n_scale (w (S k)))%Q) by (rewrite B1; nra).
  pose proof (code_close (n_q (w (S k))) (nd_get (t_fp t) [j]) (n_scale (w (S k))) (n_zp (w (S k))) (nd_get (t_policy t) [j]) WI PS) as CC.
  rewrite (BV j Hj) in CC at 1 2. 
  assert (U : (0 <= nd_get (t_policy t) [j] <= 1)%Q) by (apply PO; destruct G as [G _]; rewrite G; exact V).
  specialize (CC U R). rewrite B2, Z.sub_0_r in CC. rewrite B2.
  set (c := code_of _ _ _ _ _) in *.
  assert (E : (n_scale (w inp) * n_scale (w k) * inject_Z c - bias_at l j == n_scale (w (S k)) * inject_Z c - nd_get (t_fp t) [j])%Q)
    by (rewrite B1, (BV j Hj); ring).
  rewrite E. eapply Qle_trans; [exact CC|]. rewrite B1. lra.
Qed.
Lemma tidy_table p w l n k : tidy (w (S (S k))) -> layer_at p w l n k -> is_table l = true -> (forall a b, (a == b)%Q -> (kd_fn l a == kd_fn l b)%Q) ->
  in_dtype (n_q (w (S (S k)))) (n_zp (w (S (S k)))) -> (0 < n_scale (w (S (S (S k)))))%Q ->
  pars (w (S (S (S k)))) = p (S (S (S k))) ->
  (forall q c, parse_dtype (pn_dtype (data_json (w (S (S k))))) = Ok q -> in_dtype q c ->
     reaches (data_json (w (S (S (S k))))) (kd_fn l (real_of (data_json (w (S (S k)))) c))) ->
  (table_err (kd_fn l) (data_json (w (S (S k)))) (data_json (w (S (S (S k))))) <= n_scale (w (S (S (S k)))))%Q.
Proof.
  intros TI [_ _ RA LT] T PR ZP PS KP R. destruct (LT T) as (QO & LC). set (a := S (S k)) in *. set (o := S a) in *.
  destruct (lutcore_some _ _ _ _ _ LC) as (lt & EL & EF & ES & EZ).
  destruct (export_table (w a) (w o) lt (ti_wf _ TI) RA QO EL) as [TA _].
  pose proof (ti_lut _ TI) as TL. rewrite EL in TL. destruct TL as (_ & pp & SP & UP & TE). rewrite EF, ES, EZ in TE.
  assert (PQ : parse_dtype (pn_dtype (data_json (w a))) = Ok (n_q (w a))) by exact (known_parse _ (proj2 RA)).
  assert (PO : parse_dtype (pn_dtype (data_json (w o))) = Ok (n_q (w a))). { cbn [data_json pn_dtype]. rewrite QO. exact (known_parse _ (proj2 RA)). }
  unfold table_err. rewrite PQ. apply maxQ_le; [lra|]. intros v Hv. apply in_map_iff in Hv as (c & <- & Hc).
  assert (IC : in_dtype (n_q (w a)) c).
  { unfold codes_of in Hc. apply in_map_iff in Hc as (i & <- & Hi). apply in_seq in Hi. unfold in_dtype. lia. }
  destruct (TA c IC) as (d & D1 & D2). rewrite D1. destruct RA as [(WI & N1 & N2) _].
  assert (IL : (Z.to_nat (c - gmin (n_q (w a))) < code_count (n_q (w a)))%nat) by (destruct IC; unfold code_count; lia).
  rewrite TE, (create_LUT_nth_policy (n_q (w a)) _ _ _ _ _ pp _ SP IL) in D2.
  assert (d = quant1p (n_q (w a)) (snd (p o)) (fst (p o)) (kd_fn l (dequant1 (n_zp (w a)) (n_scale (w a)) c)) (nd_get pp [Z.to_nat (c - gmin (n_q (w a)))])).
  { replace (gmin (n_q (w a)) + Z.of_nat (Z.to_nat (c - gmin (n_q (w a))))) with c in D2 by (destruct IC; lia). congruence. }
  subst d. rewrite quant1p_code by exact WI. rewrite <- KP. cbn [pars fst snd].
  assert (DQ : (kd_fn l (dequant1 (n_zp (w a)) (n_scale (w a)) c) == kd_fn l (real_of (data_json (w a)) c))%Q).
  { apply PR. rewrite (dequant1_nowrap (n_q (w a))); [unfold real_of; cbn [data_json pn_scale pn_zp]; ring|exact WI| |exact IC].
    unfold zp_nowrap. destruct ZP. lia. }
  rewrite (real_of_comp _ _ _ _ (Qeq_sym _ _ DQ)). unfold real_of at 1. cbn [data_json pn_scale pn_zp].
  apply code_close; [exact WI|exact PS| |].
  - apply UP. rewrite SP. now apply valid1.
  - rewrite DQ. exact (reach_bounds _ _ _ PO (R _ c PQ IC)).
Qed.
Lemma fc_cert_le l i k b n m bv name x e e' : pn_tensor k = PMat m -> pn_tensor b = PVec bv -> (0 <= e <= e')%Q -> (0 < pn_scale k)%Q ->
  (kernel_err l k m <= pn_scale k)%Q -> (bias_err l i k bv <= pn_scale i * pn_scale k)%Q ->
  (fc_cert l (mkjop (str "FULLY_CONNECTED") name (mkpb [i; k; b] [n])) x e <=
   e' * wsum l + pn_scale k * abssum x + inject_Z (Z.of_nat (length x)) * (e' * pn_scale k) + pn_scale i * pn_scale k + pn_scale n * (1#2) + pn_scale i * pn_scale k)%Q.
Proof.
  intros TK TB [E0 E1] P KE BE. unfold fc_cert. cbn [jo_body pb_in pb_out]. rewrite TK, TB. set (ek := kernel_err l k m) in *.
  assert (EK0 : (0 <= ek)%Q) by apply maxQ_nonneg.
  assert (AX : (0 <= abssum x)%Q). { unfold abssum. clear. induction x as [|a x IH]; cbn [map sumQ fold_right]; [lra|]. fold (sumQ (map Qabs x)). pose proof (Qabs_nonneg a). lra. }
  assert (WS : (0 <= wsum l)%Q) by apply maxQ_nonneg.
  assert (NX : (0 <= inject_Z (Z.of_nat (length x)))%Q) by (change 0%Q with (inject_Z 0); rewrite <- Zle_Qle; lia).
  assert (M1 : (e * wsum l <= e' * wsum l)%Q) by (apply Qmult_le_compat_r; assumption).
  assert (M2 : (ek * abssum x <= pn_scale k * abssum x)%Q) by (apply Qmult_le_compat_r; assumption).
  assert (M3 : (e * ek <= e' * pn_scale k)%Q).
  { eapply Qle_trans; [apply Qmult_le_compat_r; [exact E1|exact EK0]|]. rewrite !(Qmult_comm e'). apply Qmult_le_compat_r; [exact KE|lra]. }
  assert (M4 : (inject_Z (Z.of_nat (length x)) * (e * ek) <= inject_Z (Z.of_nat (length x)) * (e' * pn_scale k))%Q).
  { rewrite !(Qmult_comm (inject_Z _)). apply Qmult_le_compat_r; assumption. }
  lra.
Qed.
Lemma cert_le p w hs L D : (forall j, tidy (w j)) -> (forall h, In h hs -> bias_ok w h) ->
  forall ls n inp k x e e', laid p w n k ls -> hooked hs inp k ls -> shaped n ls -> usable (data_json (w inp)) ->
  Forall tuned_ok (fst (export_layers w inp k ls)) ->
  (forall l, In l ls -> is_table l = true -> lipschitz L D l /\ forall a b, (a == b)%Q -> (kd_fn l a == kd_fn l b)%Q) ->
  (forall i, (i < length ls)%nat -> pars (w (k + 4 * i + 3)%nat) = p (k + 4 * i + 3)%nat) ->
  in_range ls (fst (export_layers w inp k ls)) -> (0 <= e <= e')%Q ->
  (cert L D ls (fst (export_layers w inp k ls)) x e <= step_cert L D ls (fst (export_layers w inp k ls)) x e')%Q.
Proof.
  intros W BO ls. induction ls as [|l ls IH]; intros n inp k x e e' LA HK Sh US OK LIP KP IR EE; [exact (proj2 EE)|].
  destruct LA as [LA LR]. destruct HK as [HK HR]. apply shaped_layer in Sh as (SL & SR & Hn). pose proof SL as (_ & Hu & LK & _).
  cbn [export_layers] in *. rewrite lut_functions_table in *.
  assert (KP' : forall i, (i < length ls)%nat -> pars (w (S (S (S (S k))) + 4 * i + 3)%nat) = p (S (S (S (S k))) + 4 * i + 3)%nat).
  { intros i Hi. specialize (KP (S i) ltac:(cbn; lia)). replace (k + 4 * S i + 3)%nat with (S (S (S (S k))) + 4 * i + 3)%nat in KP by lia. exact KP. }
  set (op := mkjop (str "FULLY_CONNECTED") (str "fully_connected " ++ kd_name l)
                  (mkpb [data_json (w inp); weight_json (w k); weight_json (w (S k))] [data_json (w (S (S k)))])) in *.
  assert (ONE : tuned_ok op -> fc_fits l (data_json (w inp)) (weight_json (w k)) (weight_json (w (S k))) (data_json (w (S (S k))))
       (code_rows (w k) (kd_units l) n) (code_vec (w (S k)) (kd_units l)) ->
     (forall i k0 b n0, jo_body op = mkpb [i; k0; b] [n0] ->
         (forall j c, (j < kd_units l)%nat -> (c < length (kd_kernel l))%nat -> reaches k0 (nth c (column j (kd_kernel l)) 0%Q)) /\
         (forall j, (j < kd_units l)%nat -> reaches b (bias_at l j))) ->
     (fc_cert l op x e <= e' * wsum l + in_scale op 1 * abssum x + inject_Z (Z.of_nat (length x)) * (e' * in_scale op 1) + in_scale op 0 * in_scale op 1 + pn_scale (out_node op) * (1#2) + in_scale op 0 * in_scale op 1)%Q).
  { intros TO FF RG. destruct (RG _ _ _ _ eq_refl) as [R1 R2]. pose proof (ff_scale _ _ _ _ _ _ _ FF) as PK.
    destruct US as (di & _ & _ & PI & _).
    apply (fc_cert_le l _ _ _ _ _ _ _ x e e' (ff_kernel _ _ _ _ _ _ _ FF) (ff_bias _ _ _ _ _ _ _ FF) EE PK).
    - exact (tidy_kernel p w l n k (W k) LA LK PK R1).
    - exact (tidy_bias p w l n k inp (W (S k)) LA (BO _ HK) PK PI R2). }
  destruct (is_table l) eqn:T; cbn [fst snd] in *.
  - inversion OK as [|? ? O1 OK1]; subst. inversion OK1 as [|? ? O2 OK2]; subst.
    assert (FF := export_fc_fits p w l (length (kd_kernel l)) inp k (fun j => ti_wf _ (W j)) LA SL US O1).
    destruct (la_t _ _ _ _ _ LA T) as (QO & LC).
    assert (UO : usable (data_json (w (S (S (S k)))))).
    { apply data_usable; [rewrite QO; apply (la_a _ _ _ _ _ LA)|]. apply (proj1 (proj2 O2)). now left. }
    cbn [in_range] in IR. rewrite T in IR. destruct IR as [R1 [R2 R3]].
    specialize (ONE O1 FF R1). cbn [cert step_cert]. rewrite T.
    destruct (LIP l (or_introl eq_refl) T) as [(L0 & D0 & _) PR].
    change (out_node op) with (data_json (w (S (S k)))) in *.
    set (e1 := fc_cert l op x e) in *.
    set (e2 := (e' * wsum l + _ + _ + _ + _ + _)%Q) in *. set (ex := excess (data_json (w (S (S k)))) (affine l x)).
    assert (TE : (table_err (kd_fn l) (data_json (w (S (S k)))) (data_json (w (S (S (S k))))) <= n_scale (w (S (S (S k)))))%Q).
    { destruct (ff_out _ _ _ _ _ _ _ FF) as (qa & PQ & _ & _ & ZQ). destruct UO as (qo & _ & _ & PS & _).
      apply (tidy_table p w l (length (kd_kernel l)) k (W _) LA T PR).
      - rewrite (known_parse _ (proj2 (la_a _ _ _ _ _ LA)) : parse_dtype (pn_dtype (data_json (w (S (S k))))) = _) in PQ.
        assert (qa = n_q (w (S (S k)))) by congruence. subst qa. exact ZQ.
      - exact PS.
      - specialize (KP 0%nat ltac:(cbn; lia)). replace (k + 4 * 0 + 3)%nat with (S (S (S k))) in KP by lia. exact KP.
      - exact R2. }
    match goal with |- (cert L D ls ?g ?y ?a <= step_cert L D ls ?g ?y ?b)%Q => assert (LE : (0 <= a <= b)%Q) end.
    { change (out_node _) with (data_json (w (S (S (S k))))). change (pn_scale (data_json (w (S (S (S k)))))) with (n_scale (w (S (S (S k))))).
      assert (X0 : (0 <= ex)%Q) by apply maxQ_nonneg.
      assert (X1 : (Qmax e1 ex <= Qmax e2 ex)%Q) by (apply Q.max_lub; [eapply Qle_trans; [exact ONE|apply Q.le_max_l]|apply Q.le_max_r]).
      assert (X2 : (0 <= Qmax e1 ex)%Q) by (eapply Qle_trans; [exact X0|apply Q.le_max_r]).
      assert (X3 : (0 <= L l * Qmax e1 ex)%Q) by (apply Qmult_le_0_compat; assumption).
      assert (X4 : (L l * Qmax e1 ex <= L l * Qmax e2 ex)%Q) by (rewrite !(Qmult_comm (L l)); apply Qmult_le_compat_r; assumption).
      pose proof (maxQ_nonneg : forall l, (0 <= maxQ l)%Q) as X5.
      assert (X6 : (0 <= table_err (kd_fn l) (data_json (w (S (S k)))) (data_json (w (S (S (S k))))))%Q).
      { unfold table_err. destruct (parse_dtype _); [apply X5|lra]. }
      split; lra. }
    exact (IH (kd_units l) (S (S (S k))) (S (S (S (S k)))) (layer_out l x) _ _ LR HR SR UO OK2 (fun l' H => LIP l' (or_intror H)) KP' R3 LE).
  - inversion OK as [|? ? O1 OK1]; subst.
    assert (FF := export_fc_fits p w l (length (kd_kernel l)) inp k (fun j => ti_wf _ (W j)) LA SL US O1).
    cbn [in_range] in IR. rewrite T in IR. destruct IR as [R1 R2].
    specialize (ONE O1 FF R1). cbn [cert step_cert]. rewrite T. change (out_node op) with (data_json (w (S (S k)))) in *.
    set (e1 := fc_cert l op x e) in *.
    set (e2 := (e' * wsum l + _ + _ + _ + _ + _)%Q) in *. set (ex := excess (data_json (w (S (S k)))) (layer_out l x)). set (lk := leak l _).
    assert (X0 : (0 <= ex)%Q) by apply maxQ_nonneg.
    assert (LE : (0 <= Qmax e1 (Qmax lk ex) <= Qmax e2 (Qmax lk ex))%Q).
    { split; [eapply Qle_trans; [exact X0|]; eapply Qle_trans; [|apply Q.le_max_r]; apply Q.le_max_r|].
      apply Q.max_lub; [eapply Qle_trans; [exact ONE|apply Q.le_max_l]|apply Q.le_max_r]. }
    exact (IH (kd_units l) (S (S k)) (S (S (S (S k)))) (layer_out l x) _ _ LR HR SR (ff_out _ _ _ _ _ _ _ FF) OK1 (fun l' H => LIP l' (or_intror H)) KP' R2 LE).
Qed.
(** After every history of requantizing updates of nodes other than the biases and of rounding policies between floor and ceiling,
    if the weights, biases and table values can be represented and the activation nodes kept their parameters, the error of the
    exported network against the float network is bounded by a formula in the scales of the file: no weight, bias or table entry
    is off by more than one step of its own scale. *)
Theorem C80_step_bound : forall ls n L D input qi fi specs f os, (0 < n)%nat -> shaped n ls ->
  created input qi fi -> readable qi -> describe n ls specs ->
  (forall l, In l ls -> is_table l = true -> lipschitz L D l /\ forall a b, (a == b)%Q -> (kd_fn l a == kd_fn l b)%Q) ->
  let st := build_net input specs in
  let w := run (S (S f)) (w_nodes st) os in
  let j := export_net w ls in
  Forall (fun o => tuning (w_nodes st) o /\ updating o /\ allowed (w_layers st) o /\ unit_policy o) os -> Forall tuned_ok (jt_graph j) ->
  acts_kept (w_nodes st) w (length ls) ->
  exists qop ops out net, dense_file ls n j qop ops out /\ pipe_load j = Ok net /\
    (in_range ls ops -> forall batch, batch <> [] -> (forall x, In x batch -> length x = n) ->
     exists Y, pipe_infer net batch = Ok (VF Y) /\
       Forall2 (fun x y => within (step_cert L D ls ops x (input_err qop x)) y (net_out ls x)) batch Y).
Proof.
  intros ls n L D input qi fi specs f os Hn Sh (s0 & z0 & CI) RI DE LIP st w j T OK AK.
  assert (T1 : Forall (tuning_step (w_nodes st)) os) by (eapply Forall_impl; [|exact T]; intros o (A & B & _ & C); repeat split; assumption).
  assert (T2 : Forall (allowed (w_layers st)) os) by (eapply Forall_impl; [|exact T]; intros o (_ & _ & A & _); exact A).
  assert (T3 : Forall (tuning (w_nodes st)) os) by (eapply Forall_impl; [|exact T]; intros o (A & _); exact A).
  assert (W0 : forall j, tidy (w_nodes st j)).
  { apply (build_tidy ls specs n); [exact DE|]. intros i. cbn [start_net w_nodes]. rewrite CI. apply bare_tidy, with_tensor_tidy. exact (proj1 (proj1 RI)). }
  assert (LA := build_laid ls specs n (start_net input) DE). cbv zeta in LA. fold (build_net input specs) in LA. fold st in LA. cbn [start_net w_next] in LA.
  assert (HK := build_hooked ls specs n (start_net input) DE). fold (build_net input specs) in HK. fold st in HK. cbn [start_net w_next w_in] in HK.
  assert (C : forall j, core (w j) = core (w_nodes st j)).
  { apply (run_keeps (S (S f)) (w_nodes st) os (w_nodes st) (fun i => ti_wf _ (W0 i)) (fun _ => eq_refl) T3). }
  assert (W := run_tidy (S (S f)) (w_nodes st) os (w_nodes st) W0 (fun _ => eq_refl) T1). fold w in W.
  apply (laid_core _ _ w C) in LA.
  destruct (with_tensor_ok (node_new s0 z0 qi) fi (proj1 (proj1 RI))) as [GI SI].
  assert (BO : forall h, In h (w_layers st) -> bias_ok w h).
  { refine (proj2 (C32_bias_follows input specs f os _ _ (describe_ok ls specs n DE) T2)); rewrite CI; assumption. }
  assert (Q0 : n_q (w 0%nat) = qi).
  { rewrite (core_q _ _ (C 0%nat)). change (n_q (bare (w_nodes st 0%nat)) = qi). unfold st, build_net. rewrite fold_dense_old by (cbn; lia).
    cbn [start_net w_nodes]. rewrite CI. reflexivity. }
  unfold j, export_net in OK. cbn [jt_graph] in OK. assert (OQ := Forall_inv OK). assert (OK1 := Forall_inv_tail OK). apply Forall_app_inv in OK1 as [OK1 _].
  assert (US : usable (data_json (w 0%nat))).
  { apply data_usable; [rewrite Q0; exact RI|]. apply (proj1 (proj2 OQ)). now left. }
  set (qop := mkjop (str "QUANTIZE") (str "QUANTIZE") (mkpb [] [data_json (w 0%nat)])).
  assert (DF : dense_file ls n j qop (fst (export_layers w 0 1 ls)) (data_json (w (snd (export_layers w 0 1 ls))))).
  { constructor; [exact Hn|exact Sh|reflexivity|reflexivity|reflexivity|reflexivity|].
    exists (data_json (w 0%nat)). split; [exact US|]. split; [reflexivity|].
    exact (export_implements _ w (fun i => ti_wf _ (W i)) ls n 0 1 LA Sh US OK1). }
  destruct (C79_certificate ls n L D j _ _ _ DF (fun l H HT => proj1 (LIP l H HT))) as (net & PL & RUN).
  eexists _, _, _, net. split; [exact DF|]. split; [exact PL|]. intros IR batch NE LB.
  destruct (RUN batch NE LB) as (Y & PI & F). exists Y. split; [exact PI|].
  eapply PropEngine.Forall2_weaken; [|exact F]. intros x y WI. cbv beta in *.
  assert (E0 : (0 <= input_err qop x)%Q).
  { unfold input_err. destruct US as (? & _ & _ & P & _). eapply Qle_trans; [|apply Q.le_max_l]. change (out_scale qop) with (pn_scale (data_json (w 0%nat))). lra. }
  assert (LE := cert_le _ w (w_layers st) L D W BO ls n 0 1 x (input_err qop x) (input_err qop x) LA HK Sh US OK1 LIP).
  assert (KP : forall i, (i < length ls)%nat -> pars (w (1 + 4 * i + 3)%nat) = pars (w_nodes st (1 + 4 * i + 3)%nat)).
  { intros i Hi. destruct (AK i Hi) as [A B]. replace (1 + 4 * i + 3)%nat with (4 * i + 4)%nat by lia. unfold pars. now rewrite A, B. }
  specialize (LE KP IR (conj E0 (Qle_refl _))).
  destruct WI as [WL WI]. split; [exact WL|]. intros i Hi. eapply Qle_trans; [exact (WI i Hi)|exact LE].
Qed.

(** ** The node store the builder leaves behind exports to the builder's file *)
Definition matnd (m : list (list Q)) : nd Q := mknd [length m; width m] (fun i => nth (hd 0%nat (tl i)) (nth (hd 0%nat i) m []) 0%Q).
Lemma map_seq_nth {A} (l : list A) d : map (fun i => nth i l d) (seq 0 (length l)) = l.
Proof.
  induction l as [|a l IH]; [reflexivity|]. cbn [length seq map nth]. f_equal. rewrite <- seq_shift, map_map. exact IH.
Qed.
Lemma matnd_rows q z s m c : (forall r, In r m -> length r = c) -> nd_rows (quantize q (matnd m) z s None) = PMat (map (map (quant1 q z s)) m).
Proof.
  intros H. unfold nd_rows. cbn [quantize matnd nd_map nd_shape nd_get]. f_equal.
  transitivity (map (fun j => map (quant1 q z s) (nth j m [])) (seq 0 (length m))).
  - apply map_ext_in. intros j Hj. apply in_seq in Hj. cbn [hd tl].
    assert (L : length (nth j m []) = width m).
    { rewrite (H (nth j m [])) by (apply nth_In; lia). unfold width. destruct m as [|r m]; [cbn in Hj; lia|]. symmetry. apply H. now left. }
    rewrite <- L. rewrite <- (map_seq_nth (nth j m []) 0%Q) at 2. rewrite map_map. reflexivity.
  - rewrite <- (map_seq_nth m []) at 2. rewrite map_map. reflexivity.
Qed.
Lemma vec_rows q z s v : nd_rows (quantize q (nd_of_list 0%Q v) z s None) = PVec (map (quant1 q z s) v).
Proof.
  unfold nd_rows. cbn [quantize nd_of_list nd_map nd_shape nd_get hd]. f_equal. rewrite <- (map_seq_nth v 0%Q) at 2. rewrite map_map. reflexivity.
Qed.
Lemma data_bare n n' : bare n = bare n' -> data_json n = data_json n'.
Proof. intros E. exact (f_equal data_json E). Qed.
Lemma weight_bare n n' : bare n = bare n' -> weight_json n = weight_json n'.
Proof. intros E. exact (f_equal weight_json E). Qed.
Lemma width_map {A B} (f : A -> B) m : width (map (map f) m) = width m.
Proof. unfold width. destruct m as [|r m]; [reflexivity|]. cbn [map hd]. apply map_length. Qed.
(** one layer *)
Lemma dense_same c l inp data d qk q qb n ops out data' :
  layer_cfg c (kd_name l) = CDense d -> good_cfg d qk q qb -> plain_act l \/ table_act l \/ relu_act l -> layer_shaped n l ->
  (forall r, In r data -> length r = n) ->
  pipe_dense (layer_cfg c (kd_name l)) l inp data = Ok (ops, out, data') ->
  data' = map (float_layer l) data /\
  exists sp, describes n l sp /\
    forall st w, data_json (w_nodes st (w_in st)) = inp -> (w_in st < w_next st)%nat ->
      (forall j, (j < w_next (add_dense st sp))%nat -> bare (w j) = bare (w_nodes (add_dense st sp) j)) ->
      let k := w_next st in
      let fc := mkjop (str "FULLY_CONNECTED") (str "fully_connected " ++ kd_name l)
                  (mkpb [data_json (w (w_in st)); weight_json (w k); weight_json (w (S k))] [data_json (w (S (S k)))]) in
      let t := upper (kd_act l) ++ str "LUT" in
      ops = (if is_table l then [fc; mkjop t t (mkpb [data_json (w (S (S k)))] [data_json (w (S (S (S k))))])] else [fc]) /\
      out = data_json (w (if is_table l then S (S (S k)) else S (S k))) /\
      w_in (add_dense st sp) = if is_table l then S (S (S k)) else S (S k).
Proof.
  intros EC G HA Sh LD E.
  destruct (pipe_dense_inv c l inp data d qk q qb n ops out data' EC G HA Sh LD E) as [ED _]. split; [exact ED|]. clear ED.
  rewrite EC in E. destruct G as [Gopt Gk Ga Gba Gb Nk N Nb Gpos Gsym].
  assert (PA : map (preact l) data = map (affine l) data).
  { apply map_ext_in. intros r Hr. apply (preact_affine n); [exact Sh|apply LD, Hr]. }
  unfold pipe_dense in E. rewrite Gk, Ga, Gba, Gb in E. cbn [rbind] in E.
  destruct (quant_kernel qk (d_sym d) (kd_w l)) as [k|] eqn:EK; [|discriminate]. cbn [rbind] in E. rewrite PA, Gopt in E.
  unfold quant_kernel in EK. destruct (calib_total _ (kd_w_ne n l Sh)) as (dd & lo & hi & C1 & [R1 R2] & LH & IN).
  rewrite C1 in EK. cbn [rbind] in EK. destruct (dist_quantize dd qk (Some 0) None (d_sym d)) as [[sk zk]|]; [|discriminate]. cbn [rbind] in EK.
  rewrite R1, R2 in EK. cbn [rbind fst snd] in EK.
  assert (Ek : k = mkpn sk zk (grepr qk) [length (kd_w l); width (kd_w l)]
        (PMat (map (map (fun x => quant1 qk zk sk (clipQ lo hi x))) (kd_w l))) None) by congruence. clear EK.
  destruct (quant_bias_add q (kd_act l) data (map (affine l) data)) as [ba|] eqn:EB; [|discriminate]. cbn [rbind] in E.
  unfold quant_bias_add in EB. destruct (calibrate (concat (map (affine l) data))) as [da|]; [|discriminate]. cbn [rbind] in EB.
  destruct (fused_trim _ _) as [d'|]; [|discriminate]. cbn [rbind] in EB.
  destruct (dist_quantize d' q None None false) as [[sa za]|]; [|discriminate]. cbn [rbind fst snd] in EB.
  assert (Eba : ba = mkpn sa za (grepr q) [width data] PNone None) by congruence. clear EB.
  set (kn := NodeModel.with_tensor (node_new sk zk qk) (matnd (map (map (clipQ lo hi)) (kd_w l)))).
  set (an := NodeModel.with_tensor (node_new sa za q) (matnd data)).
  pose proof Sh as (Hn & Hu & LK & LR & LB).
  assert (WR : forall r, In r (kd_w l) -> length r = n).
  { intros r Hr. apply In_nth with (d := []) in Hr as (j & Hj & <-). rewrite kd_w_length in Hj. rewrite kd_w_nth by exact Hj. unfold column. now rewrite map_length. }
  assert (WW : width (kd_w l) = n).
  { unfold width. pose proof (kd_w_length l) as X. destruct (kd_w l) as [|r m]; [cbn in X; lia|]. apply WR. now left. }
  assert (KI : kernel_is l n (matnd (map (map (clipQ lo hi)) (kd_w l)))).
  { split; [cbn [matnd nd_shape]; rewrite map_length, kd_w_length, width_map, WW; reflexivity|]. intros j i Hj Hi. cbn [matnd nd_get hd tl].
    rewrite nth_indep with (d' := map (clipQ lo hi) []) by (rewrite map_length, kd_w_length; exact Hj). rewrite map_nth, kd_w_nth by exact Hj.
    assert (LC : length (column j (kd_kernel l)) = n) by (unfold column; now rewrite map_length).
    rewrite nth_indep with (d' := clipQ lo hi 0%Q) by (rewrite map_length, LC; exact Hi). rewrite map_nth. apply clipQ_id, IN.
    apply in_concat. exists (column j (kd_kernel l)). split; [|apply nth_In; lia]. rewrite <- (kd_w_nth l j []) by exact Hj. apply nth_In. rewrite kd_w_length. exact Hj. }
  assert (BI : bias_is l (nd_of_list 0%Q (kd_b l))).
  { split; [cbn [nd_of_list nd_shape]; rewrite (kd_b_length n) by exact Sh; reflexivity|]. intros j Hj. cbn [nd_of_list nd_get hd]. rewrite (kd_b_nth n) by assumption. reflexivity. }
  assert (KJ : weight_json kn = k).
  { rewrite Ek. unfold weight_json, kn. cbn [NodeModel.with_tensor node_new n_scale n_zp n_q n_tens n_lut option_map t_fp t_codes].
    assert (X : nd_rows (quantize qk (matnd (map (map (clipQ lo hi)) (kd_w l))) zk sk None) = PMat (map (map (quant1 qk zk sk)) (map (map (clipQ lo hi)) (kd_w l)))).
    { apply (matnd_rows _ _ _ _ n). intros r Hr. apply in_map_iff in Hr as (r0 & <- & Hr). rewrite map_length. apply WR, Hr. }
    rewrite X, map_map. f_equal; [|f_equal; apply map_ext; intros r; apply map_map].
    cbn [matnd nd_shape]. now rewrite map_length, width_map. }
  assert (AJ : data_json an = ba) by (rewrite Eba; reflexivity).
  assert (BJ : forall si, weight_json (NodeModel.with_tensor (node_new (si * n_scale kn)%Q 0 qb) (nd_of_list 0%Q (kd_b l))) = quant_bias qb si (pn_scale k) (kd_b l)).
  { intros si. rewrite Ek. unfold weight_json, quant_bias. cbn [NodeModel.with_tensor node_new n_scale n_zp n_q n_tens n_lut option_map t_fp t_codes kn pn_scale].
    f_equal. exact (vec_rows qb 0 (si * sk)%Q (kd_b l)). }
  assert (KQ : known qk) by (split; [exact (proj1 Nk)|eauto]). assert (KB : known qb) by (split; [exact Nb|eauto]). assert (RQ : readable q) by (split; [exact N|eauto]).
  unfold quant_activation in E.
  assert (T : (is_table l = false /\ mem (upper (kd_act l)) SKIP_FUNCTIONS = true) \/ table_act l).
  { destruct HA as [H|[H|H]]; [left|right; exact H|left]; [apply plain_facts in H; tauto|apply relu_facts, H]. }
  destruct T as [[T1 T2]|HT].
  - rewrite T2 in E. cbn [rbind] in E.
    match type of E with Ok (?a, ?b, ?c') = _ => assert (X1 : ops = a) by congruence; assert (X2 : out = b) by congruence end. clear E.
    exists (mkspec kn qb (nd_of_list 0%Q (kd_b l)) an None). split.
    { constructor; cbn [s_kernel s_bias_q s_bias s_bias_add s_act].
      - eexists qk, _. split; [eexists _, _; reflexivity|]. split; [exact KQ|exact KI].
      - split; [exact KB|exact BI].
      - eexists q, _. split; [eexists _, _; reflexivity|exact RQ].
      - exact T1. }
    intros st w WI LI WB. destruct (add_dense_nodes st (mkspec kn qb (nd_of_list 0%Q (kd_b l)) an None)) as (A0 & A1 & A2 & A3 & _).
    rewrite <- WB in A1, A2, A3 by (rewrite add_dense_next; lia). cbv zeta. rewrite T1.
    rewrite (weight_bare _ _ A1), (data_bare _ _ A3). cbn [s_kernel]. change (weight_json kn) with (weight_json kn).
    assert (DI : data_json (w (w_in st)) = inp).
    { rewrite <- WI. apply data_bare. rewrite WB by (rewrite add_dense_next; lia). apply A0, LI. }
    rewrite DI, KJ.
    assert (BW : weight_json (w (S (w_next st))) = quant_bias qb (pn_scale inp) (pn_scale k) (kd_b l)).
    { rewrite <- (BJ (pn_scale inp)). rewrite <- WI. cbn [data_json pn_scale]. change (weight_json (w (S (w_next st)))) with (weight_json (bare (w (S (w_next st))))). rewrite A2. reflexivity. }
    rewrite BW.
    assert (AN : data_json (add_node (mkspec kn qb (nd_of_list 0%Q (kd_b l)) an None)) = ba) by (rewrite Eba; reflexivity).
    rewrite AN. split; [exact X1|]. split; [exact X2|]. reflexivity.
  - destruct (table_facts l HT) as (T1 & T2 & T3 & _). rewrite T2, T3 in E.
    set (act := map (map (kd_fn l)) (map (affine l) data)) in *. destruct (calibrate (concat act)) as [dv|]; [|discriminate]. cbn [rbind] in E.
    destruct (dist_quantize dv q None None false) as [[os oz]|]; [|discriminate]. cbn [rbind fst snd] in E.
    match type of E with Ok (?a, ?b, ?c') = _ => assert (X1 : ops = a) by congruence; assert (X2 : out = b) by congruence end. clear E.
    set (on := NodeModel.with_tensor (node_new os oz q) (matnd act)).
    set (sp := mkspec kn qb (nd_of_list 0%Q (kd_b l)) an (Some (kd_fn l, on))).
    exists sp. split.
    { constructor; cbn [s_kernel s_bias_q s_bias s_bias_add s_act sp].
      - eexists qk, _. split; [eexists _, _; reflexivity|]. split; [exact KQ|exact KI].
      - split; [exact KB|exact BI].
      - eexists q, _. split; [eexists _, _; reflexivity|exact RQ].
      - split; [exact T1|]. split; [reflexivity|]. eexists _, _, _. reflexivity. }
    intros st w WI LI WB. destruct (add_dense_nodes st sp) as (A0 & A1 & A2 & A3 & A4 & _). specialize (A4 (kd_fn l) on eq_refl).
    rewrite <- WB in A1, A2, A3, A4 by (rewrite add_dense_next; lia). cbv zeta. rewrite T1.
    rewrite (weight_bare _ _ A1), (data_bare _ _ A3), (data_bare _ _ A4). cbn [s_kernel sp].
    assert (DI : data_json (w (w_in st)) = inp).
    { rewrite <- WI. apply data_bare. rewrite WB by (rewrite add_dense_next; lia). apply A0, LI. }
    rewrite DI, KJ.
    assert (BW : weight_json (w (S (w_next st))) = quant_bias qb (pn_scale inp) (pn_scale k) (kd_b l)).
    { rewrite <- (BJ (pn_scale inp)). rewrite <- WI. cbn [data_json pn_scale]. change (weight_json (w (S (w_next st)))) with (weight_json (bare (w (S (w_next st))))). rewrite A2. reflexivity. }
    rewrite BW.
    assert (AL : data_json (add_node sp) = attach_lut ba q (kd_fn l) os oz) by (rewrite Eba; reflexivity).
    rewrite AL. assert (OJ : data_json on = mkpn os oz (grepr q) [width act] PNone None) by reflexivity. rewrite OJ.
    split; [exact X1|]. split; [exact X2|]. reflexivity.
Qed.

Lemma layers_same c : forall ls n inp data ops out,
  shaped n (denses ls) -> Forall (good_rlayer c) (denses ls) -> (forall r, In r data -> length r = n) ->
  pipe_layers c ls inp data = Ok (ops, out) ->
  exists sps, describe n (denses ls) sps /\
    forall st, data_json (w_nodes st (w_in st)) = inp -> (w_in st < w_next st)%nat ->
      let w := w_nodes (fold_left add_dense sps st) in
      let r := export_layers w (w_in st) (w_next st) (denses ls) in
      fst r = ops /\ data_json (w (snd r)) = out.
Proof.
  induction ls as [|p ls IH]; intros n inp data ops out Sh G LD PL.
  - cbn [pipe_layers] in PL. assert (ops = []) by congruence. assert (out = inp) by congruence. subst.
    exists []. split; [exact Logic.I|]. intros st H _. split; [reflexivity|exact H].
  - destruct p as [l|]; [|exact (IH n inp data ops out Sh G LD PL)]. cbn [denses] in Sh, G |- *.
    apply shaped_layer in Sh as (SL & SR & _).
    pose proof (Forall_inv G) as (HA & d & qk & q & qb & EC & GC). pose proof (Forall_inv_tail G) as GR.
    cbn [pipe_layers] in PL. destruct (pipe_dense (layer_cfg c (kd_name l)) l inp data) as [[[ops1 out1] data1]|] eqn:PD; [|discriminate].
    cbn [rbind] in PL. destruct (pipe_layers c ls out1 data1) as [[ops2 out2]|] eqn:PL2; [|discriminate]. cbn [rbind fst snd] in PL.
    assert (EO : ops = ops1 ++ ops2) by congruence. assert (EU : out = out2) by congruence. subst ops out. clear PL.
    destruct (dense_same c l inp data d qk q qb n ops1 out1 data1 EC GC HA SL LD PD) as (ED & sp & DS & X). subst data1.
    destruct (IH (kd_units l) out1 (map (float_layer l) data) ops2 out2 SR GR) as (sps & DD & Y).
    { intros r Hr. apply in_map_iff in Hr as (y & <- & _). apply float_layer_length. }
    { exact PL2. }
    exists (sp :: sps). split; [split; assumption|]. intros st WI LI. cbn [fold_left]. set (w := w_nodes (fold_left add_dense sps (add_dense st sp))). cbv zeta.
    destruct (X st (w_nodes (add_dense st sp)) WI LI (fun _ _ => eq_refl)) as (_ & O1 & W1). rewrite <- W1 in O1.
    destruct (Y (add_dense st sp)) as [Y1 Y2].
    { symmetry. exact O1. }
    { rewrite W1, add_dense_next. destruct (is_table l); lia. }
    fold w in Y1, Y2.
    destruct (X st w WI LI) as (E1 & _ & _).
    { intros j Hj. apply fold_dense_old, Hj. }
    rewrite W1, add_dense_next in Y1, Y2.
    cbn [export_layers]. rewrite lut_functions_table. rewrite E1. cbv zeta. destruct (is_table l); cbn [fst snd app].
    + split; [do 2 f_equal; exact Y1|exact Y2].
    + split; [f_equal; exact Y1|exact Y2].
Qed.

(** The file the quantizer writes without tuning (properties C64, C65) is the serialisation of such a store of nodes: *)
Theorem C80_same_file : forall c ls data n j, rready c ls data n -> pipe_build c ls data = Ok j ->
  exists input qi fi specs, created input qi fi /\ readable qi /\ describe n (denses ls) specs /\
    export_net (w_nodes (build_net input specs)) (denses ls) = j.
Proof.
  intros c ls data n j [(q & P & N) Hn Sh G LD NE] PB. unfold pipe_build, pipe_input in PB. rewrite P in PB. cbn [rbind] in PB.
  destruct (calibrate (concat data)) as [dv|]; [|discriminate]. cbn [rbind] in PB.
  destruct (dist_quantize dv q None None false) as [[s z]|]; [|discriminate]. cbn [rbind fst snd] in PB.
  destruct (pipe_layers c ls _ data) as [[ops out]|] eqn:PL; [|discriminate]. cbn [rbind fst snd] in PB.
  destruct (layers_same c ls n _ data ops out Sh G LD PL) as (sps & DE & X).
  set (input := NodeModel.with_tensor (node_new s z q) (matnd data)).
  exists input, q, (matnd data), sps. split; [eexists _, _; reflexivity|]. split; [split; [exact N|eauto]|]. split; [exact DE|].
  destruct (X (start_net input) eq_refl (Nat.lt_0_1)) as [E1 E2]. cbn [start_net w_in w_next] in E1, E2.
  unfold export_net. fold (build_net input sps) in E1, E2. rewrite E1, E2.
  assert (E0 : data_json (w_nodes (build_net input sps) 0%nat) = mkpn s z (grepr q) [width data] PNone None).
  { apply (data_bare _ input). unfold build_net. rewrite fold_dense_old by (cbn; lia). reflexivity. }
  rewrite E0. congruence.
Qed.

(** Hence every tuning session on the nodes of a quantized model writes a file the certificate of C79 covers. *)
Theorem C80_tuned_model : forall c ls data n j, rready c ls data n -> pipe_build c ls data = Ok j ->
  exists w0 : world, export_net w0 (denses ls) = j /\
    forall w, session w0 (4 * length (denses ls) + 1) w -> Forall tuned_ok (jt_graph (export_net w (denses ls))) ->
      exists qop ops out, dense_file (denses ls) n (export_net w (denses ls)) qop ops out.
Proof.
  intros c ls data n j R PB. destruct (C80_same_file c ls data n j R PB) as (input & qi & fi & specs & CI & RI & DE & E).
  exists (w_nodes (build_net input specs)). split; [exact E|]. intros w T OK. destruct R as [_ Hn Sh _ _ _].
  exact (C80_session_file (denses ls) n input qi fi specs w Hn Sh CI RI DE T OK).
Qed.

(** ** A network, its nodes and a tuning history meeting the hypotheses of both theorems *)
Definition hard_tanh (x : Q) : Q := Qmax (-1) (Qmin 1 x).
Definition e8_l1 : kdense := mkkd (str "a") 2 [[1#2; -1#3]; [1#4; 2#3]]%Q (Some [1#10; 0]%Q) (str "relu") (fun x => x).
Definition e8_l2 : kdense := mkkd (str "b") 1 [[4#5]; [-1#2]]%Q None (str "tanh") hard_tanh.
Definition e8_net : list kdense := [e8_l1; e8_l2].
Definition e8_input : node := NodeModel.with_tensor (node_new (1#64) 0 int8) (matnd [[1; -1]]%Q).
Definition e8_specs : list dense_spec :=
  [mkspec (NodeModel.with_tensor (node_new (1#128) 0 int8) (matnd [[1#2; 1#4]; [-1#3; 2#3]]%Q)) int32 (nd_of_list 0%Q [1#10; 0]%Q)
     (NodeModel.with_tensor (node_new (1#128) (-128) int8) (matnd [[0; 0]]%Q)) None;
   mkspec (NodeModel.with_tensor (node_new (1#128) 0 int8) (matnd [[4#5; -1#2]]%Q)) int32 (nd_of_list 0%Q [0]%Q)
     (NodeModel.with_tensor (node_new (1#64) 0 int8) (matnd [[0]]%Q))
     (Some (hard_tanh, NodeModel.with_tensor (node_new (1#127) 0 int8) (matnd [[0]]%Q)))].
(** AdaRound on the first kernel, the equalizer moving the input and that kernel, a rounding policy for the table *)
Definition e8_hist : list op :=
  [OPolicy 1 (matnd [[0; 1]; [1#3; 1]]%Q); OUpdate 0 (1#60) 3; OUpdate 1 (1#100) 2;
   OPolicy 5 (matnd [[0; 0]]%Q); OLutPolicy 7 (nd_of_list 0%Q (repeat (1#2)%Q 256))].
Definition e8_file := export_net (run 5 (w_nodes (build_net e8_input e8_specs)) e8_hist) e8_net.
Definition tuned_okb (op : jop pbody) : bool :=
  acc_fitsb op && forallb node_saneb (pb_out (jo_body op)) &&
  match pb_in (jo_body op), pb_out (jo_body op) with
  | [i; k; b], [n] => negb (Qle_bool (pn_scale k) 0) && Qle_bool (1 # 1000000) (pn_scale i * pn_scale k / pn_scale n) &&
                      negb (Qle_bool (inject_Z (2 ^ 29)) (pn_scale i * pn_scale k / pn_scale n))
  | _, _ => true
  end.
Lemma tuned_okb_sound op : tuned_okb op = true -> tuned_ok op.
Proof.
  intros H. apply andb_true_iff in H as [H H3]. apply andb_true_iff in H as [H1 H2]. split; [apply acc_fitsb_sound, H1|]. split.
  - intros n Hn. rewrite forallb_forall in H2. apply node_saneb_sound, H2, Hn.
  - intros i k b n E. rewrite E in H3. cbn [pb_in pb_out] in H3. apply andb_true_iff in H3 as [H3 H5]. apply andb_true_iff in H3 as [H3 H4].
    apply Qle_bool_iff in H4. apply negb_true_iff in H3, H5.
    split; [|split; [exact H4|]]; apply Qnot_le_lt; intros C; apply Qle_bool_iff in C; congruence.
Qed.
Lemma hard_tanh_range x : (-1 <= hard_tanh x <= 1)%Q.
Proof. unfold hard_tanh. destruct (Q.max_spec (-1) (Qmin 1 x)) as [[? ->]|[? ->]], (Q.min_spec 1 x) as [[? E]|[? E]]; rewrite ?E in *; lra. Qed.
Lemma hard_tanh_lip a b : (Qabs (hard_tanh a - hard_tanh b) <= 1 * Qabs (a - b) + 0)%Q.
Proof.
  unfold hard_tanh. apply Qabs_Qle_condition.
  pose proof (Qle_Qabs (a - b)). pose proof (Qle_Qabs (- (a - b))) as X. rewrite Qabs_opp in X.
  destruct (Q.max_spec (-1) (Qmin 1 a)) as [[? ->]|[? ->]], (Q.min_spec 1 a) as [[? E]|[? E]]; rewrite ?E in *;
  destruct (Q.max_spec (-1) (Qmin 1 b)) as [[? ->]|[? ->]], (Q.min_spec 1 b) as [[? E']|[? E']]; rewrite ?E' in *; lra.
Qed.
Lemma int8_readable : readable int8.
Proof. split; [exact int8_narrow|]. exists (str "int8"). vm_compute. reflexivity. Qed.
Lemma int8_known : known int8.
Proof. split; [exact (proj1 int8_narrow)|]. exists (str "int8"). vm_compute. reflexivity. Qed.

Example C80_example_hypotheses :
  shaped 2 e8_net /\ created e8_input int8 (matnd [[1; -1]]%Q) /\ readable int8 /\ describe 2 e8_net e8_specs /\
  Forall (fun o => tuning (w_nodes (build_net e8_input e8_specs)) o /\ updating o /\ allowed (w_layers (build_net e8_input e8_specs)) o /\ unit_policy o) e8_hist /\
  Forall tuned_ok (jt_graph e8_file) /\
  acts_kept (w_nodes (build_net e8_input e8_specs)) (run 5 (w_nodes (build_net e8_input e8_specs)) e8_hist) (length e8_net).
Proof.
  split; [|split; [|split; [|split; [|split; [|split]]]]].
  - cbn [e8_net shaped e8_l1 e8_l2 kd_units kd_kernel kd_bias].
    repeat match goal with
    | |- _ /\ _ => split
    | |- (_ < _)%nat => lia
    | |- length _ = _ => reflexivity
    | |- forall row, In row _ -> _ => let Hr := fresh in intros ? Hr; repeat (destruct Hr as [<- | Hr]; [reflexivity|]); destruct Hr
    | |- True => exact Logic.I
    | |- forall b, None = Some b -> _ => intros ? ?; discriminate
    | |- forall b, Some _ = Some b -> _ => let H := fresh in intros ? H; injection H as <-; reflexivity
    end.
  - eexists _, _. reflexivity.
  - exact int8_readable.
  - split; [|split; [|exact Logic.I]].
    + constructor.
      * eexists _, _. split; [eexists _, _; reflexivity|]. split; [exact int8_known|]. split; [reflexivity|].
        intros [|[|j]] [|[|i]] Hj Hi; cbn [e8_l1 kd_units] in Hj; try lia; reflexivity.
      * split; [split; [exact int32_fits|exists (str "int32"); vm_compute; reflexivity]|]. split; [reflexivity|]. intros [|[|j]] Hj; cbn [e8_l1 kd_units] in Hj; try lia; reflexivity.
      * eexists _, _. split; [eexists _, _; reflexivity|exact int8_readable].
      * reflexivity.
    + constructor.
      * eexists _, _. split; [eexists _, _; reflexivity|]. split; [exact int8_known|]. split; [reflexivity|].
        intros [|j] [|[|i]] Hj Hi; cbn [e8_l1 e8_l2 kd_units] in Hj, Hi; try lia; reflexivity.
      * split; [split; [exact int32_fits|exists (str "int32"); vm_compute; reflexivity]|]. split; [reflexivity|]. intros [|j] Hj; cbn [e8_l2 kd_units] in Hj; try lia; reflexivity.
      * eexists _, _. split; [eexists _, _; reflexivity|exact int8_readable].
      * split; [reflexivity|]. split; [reflexivity|]. eexists _, _, _. reflexivity.
  - assert (NB : forall i, i <> 2%nat -> i <> 6%nat -> forall h, In h (w_layers (build_net e8_input e8_specs)) -> i <> h_bias h).
    { intros i H1 H2 h [<- |[<- |[]]]; assumption. }
    repeat apply Forall_cons; [| | | | |apply Forall_nil]; (split; [|split; [|split]]); try exact Logic.I.
    + intros [|[|[|a]] [|[|[|b]] [|c d]]] H; try discriminate; vm_compute; split; discriminate.
    + refine (NB 0%nat _ _); discriminate.
    + refine (NB 1%nat _ _); discriminate.
    + intros [|[|a] [|[|[|b]] [|c d]]] H; try discriminate; vm_compute; split; discriminate.
    + vm_compute. reflexivity.
    + intros [|a [|c d]] H; [discriminate| |cbn [nd_of_list nd_shape valid_idx] in H; rewrite andb_false_r in H; discriminate]. cbn [nd_of_list nd_get hd nd_shape valid_idx] in *. apply andb_true_iff in H as [H _]. apply Nat.ltb_lt in H.
      rewrite (repeat_spec _ _ _ (nth_In (repeat (1#2)%Q 256) 0%Q H)). split; discriminate.
  - assert (K : forallb tuned_okb (jt_graph e8_file) = true) by (vm_compute; reflexivity).
    apply Forall_forall. intros o Ho. rewrite forallb_forall in K. apply tuned_okb_sound, K, Ho.
  - intros [|[|u]] H; [| |cbn in H; lia]; vm_compute; split; reflexivity.
Qed.

(** The tuned file differs from the one written without tuning; the weights, biases and table entries are representable; on the
    input (1, -1) the bound that only mentions scales is below 7/100. *)
Definition reachesb (n : pnode) (x : Q) : bool := Qle_bool (bottom n) x && Qle_bool x (top n).
Lemma reachesb_sound n x : reachesb n x = true -> reaches n x.
Proof. intros H. apply andb_true_iff in H as [H1 H2]. split; apply Qle_bool_iff; assumption. Qed.
Definition fc_reachb (l : kdense) (op : jop pbody) : bool :=
  match pb_in (jo_body op), pb_out (jo_body op) with
  | [_; k; b], [_] =>
      forallb (fun j => reachesb b (bias_at l j) &&
                        forallb (fun c => reachesb k (nth c (column j (kd_kernel l)) 0%Q)) (seq 0 (length (kd_kernel l)))) (seq 0 (kd_units l))
  | _, _ => true
  end.
Lemma fc_reachb_sound l op : fc_reachb l op = true -> forall i k b n, jo_body op = mkpb [i; k; b] [n] ->
  (forall j c, (j < kd_units l)%nat -> (c < length (kd_kernel l))%nat -> reaches k (nth c (column j (kd_kernel l)) 0%Q)) /\
  (forall j, (j < kd_units l)%nat -> reaches b (bias_at l j)).
Proof.
  unfold fc_reachb. intros H i k b n E. rewrite E in H. cbn [pb_in pb_out] in H. rewrite forallb_forall in H.
  assert (X : forall j, (j < kd_units l)%nat -> reachesb b (bias_at l j) && forallb (fun c => reachesb k (nth c (column j (kd_kernel l)) 0%Q)) (seq 0 (length (kd_kernel l))) = true).
  { intros j Hj. apply (H j). apply in_seq. lia. }
  split.
  - intros j c Hj Hc. specialize (X j Hj). apply andb_true_iff in X as [_ X]. rewrite forallb_forall in X. apply reachesb_sound, X, in_seq. lia.
  - intros j Hj. specialize (X j Hj). apply andb_true_iff in X as [X _]. apply reachesb_sound, X.
Qed.
Example C80_example : exists q0 f1 f2 t2 d,
  jt_graph e8_file = [q0; f1; f2; t2; d] /\ in_range e8_net [f1; f2; t2] /\
  jt_graph e8_file <> jt_graph (export_net (w_nodes (build_net e8_input e8_specs)) e8_net) /\
  (step_cert idf idd e8_net [f1; f2; t2] [1; -1]%Q (input_err q0 [1; -1]%Q) < 7 # 100)%Q /\
  exists net, pipe_load e8_file = Ok net /\ pipe_infer net [[1; -1]]%Q = Ok (VF [[36 # 127]]%Q).
Proof.
  assert (K : match jt_graph e8_file with
    | [q0; f1; f2; t2; d] => fc_reachb e8_l1 f1 && fc_reachb e8_l2 f2 && Qle_bool (bottom (out_node t2)) (-1) && Qle_bool 1 (top (out_node t2)) &&
        negb (Qle_bool (7 # 100) (step_cert idf idd e8_net [f1; f2; t2] [1; -1]%Q (input_err q0 [1; -1]%Q))) &&
        match jt_graph (export_net (w_nodes (build_net e8_input e8_specs)) e8_net) with
        | q1 :: _ => negb (Qeq_bool (out_scale q0) (out_scale q1)) | [] => true end
    | _ => false end = true) by (vm_compute; reflexivity).
  destruct (jt_graph e8_file) as [|q0 [|f1 [|f2 [|t2 [|d [|]]]]]]; try discriminate.
  apply andb_true_iff in K as [K K6]. apply andb_true_iff in K as [K K5]. apply andb_true_iff in K as [K K4].
  apply andb_true_iff in K as [K K3]. apply andb_true_iff in K as [K1 K2].
  exists q0, f1, f2, t2, d. split; [reflexivity|]. split; [|split; [|split]].
  - split; [exact (fc_reachb_sound _ _ K1)|]. change (is_table e8_l1) with false. cbv iota.
    split; [exact (fc_reachb_sound _ _ K2)|]. change (is_table e8_l2) with true. cbv iota. split; [|exact Logic.I].
    intros q c _ _. apply Qle_bool_iff in K3, K4. change (kd_fn e8_l2) with hard_tanh. destruct (hard_tanh_range (real_of (out_node f2) c)) as [H1 H2].
    split; [exact (Qle_trans _ _ _ K3 H1)|exact (Qle_trans _ _ _ H2 K4)].
  - intros E. rewrite <- E in K6. apply negb_true_iff in K6. rewrite (proj2 (Qeq_bool_iff _ _) (Qeq_refl _)) in K6. discriminate.
  - apply Qnot_le_lt. intros C. apply Qle_bool_iff in C. rewrite C in K5. discriminate.
  - assert (K' : match pipe_load e8_file with Ok net => pipe_infer net [[1; -1]]%Q | Err e => Err e end = Ok (VF [[36 # 127]]%Q)) by (vm_compute; reflexivity).
    destruct (pipe_load e8_file) as [net|]; [|discriminate]. exists net. split; [reflexivity|exact K'].
Qed.
(** A session: the history above, an equalizer run on the nodes of the first layer, an annealer run on those of the second, another
    rounding policy. *)
Definition e8_cost (w : world) : Q := Qabs (n_scale (w 1%nat) - (1#103)).
Definition e8_draws (t k : nat) : draw := mkdraw (if Nat.even t then 3#4 else 1#4) (1#3) (if Nat.even (t + k) then 1#4 else 3#4).
Example C80_example_session : exists w, session (w_nodes (build_net e8_input e8_specs)) (4 * length e8_net + 1) w /\
  Forall tuned_ok (jt_graph (export_net w e8_net)) /\ ~ (n_scale (w 1%nat) == 1#100)%Q /\ ~ (n_scale (w 5%nat) == 1#128)%Q.
Proof.
  set (w0 := w_nodes (build_net e8_input e8_specs)). set (w1 := run 5 w0 e8_hist).
  assert (K : match bfs_optimize 5 e8_cost w1 9 [1; 3]%nat 2 60 e8_draws with
    | Ok (Some (w2, _, _)) =>
        match pan_optimize 5 (fun w => n_scale (w 5%nat)) 3 w2 9 [5; 7; 8]%nat e8_draws (fun _ => true) with
        | Ok (w3, _, _) => let w4 := exec 5 w3 (OPolicy 1 (matnd [[1; 0]; [1; 0]]%Q)) in
            forallb tuned_okb (jt_graph (export_net w4 e8_net)) && negb (Qeq_bool (n_scale (w4 1%nat)) (1#100)) && negb (Qeq_bool (n_scale (w4 5%nat)) (1#128))
        | _ => false end
    | _ => false end = true) by (vm_compute; reflexivity).
  assert (S1 : session w0 9 w1).
  { unfold w1. assert (T : Forall (fun o => forall w, (forall j, (j < 9)%nat -> core (w j) = core (w0 j)) -> tuning w o) e8_hist).
    { repeat apply Forall_cons; [| | | | |apply Forall_nil]; try (intros w _; exact Logic.I). intros w C.
      cbn [tuning]. rewrite (core_q _ _ (C 7%nat ltac:(lia))). vm_compute. reflexivity. }
    assert (W0 : forall j, wf (w0 j)).
    { destruct C80_example_hypotheses as (_ & _ & _ & DE & _). apply (build_wf e8_net e8_specs 2); [exact DE|]. intros i. cbn [start_net w_nodes]. apply bare_wf, with_tensor_wf. exact (proj1 int8_narrow). }
    assert (X : forall os w, Forall (fun o => forall w, (forall j, (j < 9)%nat -> core (w j) = core (w0 j)) -> tuning w o) os -> session w0 9 w -> session w0 9 (run 5 w os)).
    { induction os as [|o os IH]; intros w F SW; [exact SW|]. cbn [run fold_left]. apply IH; [exact (Forall_inv_tail F)|]. apply ss_op; [exact SW|].
      apply (Forall_inv F). intros j Hj. apply (session_kept w0 9 w W0 SW). exact Hj. }
    apply X; [exact T|apply ss_start]. }
  destruct (bfs_optimize 5 e8_cost w1 9 [1; 3]%nat 2 60 e8_draws) as [[[[w2 b] se]|]|] eqn:EB; [|discriminate K|discriminate K].
  destruct (pan_optimize 5 _ 3 w2 9 [5; 7; 8]%nat e8_draws _) as [[[w3 b'] e']|] eqn:EP; [|discriminate K]. cbv zeta in K.
  apply andb_true_iff in K as [K K3]. apply andb_true_iff in K as [K1 K2]. apply negb_true_iff in K2, K3.
  exists (exec 5 w3 (OPolicy 1 (matnd [[1; 0]; [1; 0]]%Q))). split; [|split; [|split]].
  - apply (ss_op w0 9 w3 5 (OPolicy 1 (matnd [[1; 0]; [1; 0]]%Q))); [|exact Logic.I]. eapply ss_anneal; [|exact EP]. eapply ss_bfs; [exact S1|exact EB].
  - apply Forall_forall. intros o Ho. rewrite forallb_forall in K1. apply tuned_okb_sound, K1, Ho.
  - apply Qeq_bool_neq, K2.
  - apply Qeq_bool_neq, K3.
Qed.
