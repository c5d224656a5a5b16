(** Property C89: the guarantees of the LSTM loop (C24, C25) in binary64: NaN, infinities and rounding included. *)
From Verif Require Import Base BaseProofs DtypeModel QuantModel QuantProofs LutModel FcModel FcProofs FcLayer EngineModel EngineProofs LstmModel LstmProofs PropCore PropFc PropEngine PropLstm
  FloatModel FloatProofs FloatQuant PropFloat FloatFcModel PropFloatFc FloatLstmModel FloatLstmProofs PropFloatLstm FloatLstmRun.
From Coq Require Import Lqa.
Open Scope Z_scope.
Open Scope list_scope.

(** ** Batches and prefixes.  No hypothesis on the numbers: any float multiplier, infinite or NaN. *)
(** Each element of a batch is inferred as if it were alone (results and recorded tensors). *)
Theorem C89_batch_independent : forall l T samples o rec b s,
  lstm_infer_f l T samples = Ok (o, rec) -> nth_error samples b = Some s ->
  exists rec', lstm_infer_f l T [s] = Ok (sample b o, rec') /\
               rec' = map (fun step => [nth b step dstep]) rec.
Proof.
  intros l T ss o rec b s H Hb.
  destruct (infer_sizes_F _ _ _ _ _ H) as (HT & HB & Hn).
  apply infer_inv_F in H as (R & N & Ho).
  assert (Hbl : (b < length ss)%nat) by (apply nth_error_Some; congruence).
  apply (infer_rows_F l T ss rec HB Hn) in R. destruct R as (L & LB & R). specialize (R b s Hb).
  set (rec' := map (fun step => [nth b step dstep]) rec). exists rec'. split; [|reflexivity].
  assert (R' : run_steps_f l [repeat 0 (fl_cells l)] [repeat 0 (fl_cells l)] (timesteps T (fl_input_zp l) [s]) = Ok rec').
  { apply infer_rows_F; [discriminate|exact Hn|]. split; [unfold rec'; rewrite map_length; exact L|]. split.
    - intros x Hx. apply in_map_iff in Hx as (y & <- & _). reflexivity.
    - intros [|b'] s' E; [|destruct b'; discriminate]. injection E as <-. rewrite R. f_equal.
      unfold rowb, rec'. rewrite map_map. reflexivity. }
  rewrite (infer_intro_F _ _ _ _ R') by (unfold rec'; destruct rec; [congruence|discriminate]).
  f_equal. f_equal. rewrite Ho.
  assert (Hnth : forall step, In step rec -> nth b (map s_hidden step) [] = s_hidden (nth b step dstep)).
  { intros step Hst. change [] with (s_hidden dstep). apply map_nth. }
  destruct (fl_seq l); cbn [sample].
  - f_equal. cbn [length seq map]. f_equal.
    rewrite (nth_indep _ [] (map (fun step => nth 0 step []) (map (map s_hidden) rec))) by (rewrite map_length, seq_length; lia).
    rewrite (map_nth (fun b0 => map (fun step => nth b0 step []) (map (map s_hidden) rec)) (seq 0 (length ss)) 0%nat b).
    rewrite seq_nth by lia. rewrite Nat.add_0_l. unfold rec'. rewrite !map_map. apply map_ext_in.
    intros step Hst. cbn [map nth]. now rewrite Hnth.
  - f_equal.
    assert (G : forall rc : list (list step_rec), rc <> [] -> (forall st, In st rc -> In st rec) ->
      last (map (map s_hidden) (map (fun step => [nth b step dstep]) rc)) [] = [nth b (last (map (map s_hidden) rc) []) []]).
    { induction rc as [|st rc IH]; intros Nn Hin; [congruence|]. destruct rc as [|st2 rc2].
      - cbn [map last]. now rewrite Hnth by (apply Hin; now left).
      - specialize (IH ltac:(discriminate) ltac:(intros; apply Hin; now right)). exact IH. }
    unfold rec'. apply G; [exact N|auto].
Qed.

(** A batch fails only if one of its elements fails alone. *)
Theorem C89_batch_succeeds_iff : forall l T samples, samples <> [] ->
  ((exists r, lstm_infer_f l T samples = Ok r) <->
   (forall s, In s samples -> exists r, lstm_infer_f l T [s] = Ok r)).
Proof.
  intros l T ss Hne. split.
  - intros ((o & rec) & H) s Hs. apply In_nth_error in Hs as (b & Hb).
    destruct (C89_batch_independent _ _ _ _ _ _ _ H Hb) as (rec' & E & _). eauto.
  - intros H. assert (HB : (length ss <> 0)%nat) by (destruct ss; simpl; congruence).
    assert (P : exists s0, In s0 ss) by (destruct ss as [|a r]; [congruence|exists a; now left]).
    destruct P as (s0 & Hs0). destruct (H s0 Hs0) as ((o0 & rec0) & E0).
    destruct (infer_sizes_F _ _ _ _ _ E0) as (HT & _ & Hn). clear o0 rec0 E0 s0 Hs0.
    set (z := repeat 0 (fl_cells l)).
    set (steps s := map (fun t => map (fun v => i64 (v - fl_input_zp l)) (nth t s [])) (seq 0 T)).
    assert (Q1 : forall s, In s ss -> exists rr, row_run_f l z z (steps s) = Ok rr).
    { intros s Hs. destruct (H s Hs) as ((o & rec) & E). apply infer_inv_F in E as (R & _ & _).
      apply (infer_rows_F l T [s] rec ltac:(discriminate) Hn) in R. destruct R as (_ & _ & R). eexists. exact (R 0%nat s eq_refl). }
    assert (Q2 : exists rrs, Forall2 (fun s rr => row_run_f l z z (steps s) = Ok rr) ss rrs).
    { clear - Q1. induction ss as [|s ss IH]; [exists []; constructor|].
      destruct (Q1 s (or_introl eq_refl)) as (rr & E). destruct IH as (rrs & F); [intros; apply Q1; now right|].
      exists (rr :: rrs). constructor; assumption. }
    destruct Q2 as (rrs & F). apply (Forall2_nth_iff _ _ _ []) in F as (LF & F).
    set (rec := map (fun t => map (fun rr => nth t rr dstep) rrs) (seq 0 T)).
    assert (R : run_steps_f l [z] [z] (timesteps T (fl_input_zp l) ss) = Ok rec).
    { apply infer_rows_F; [exact HB|exact Hn|]. split; [unfold rec; now rewrite map_length, seq_length|]. split.
      - intros x Hx. apply in_map_iff in Hx as (t & <- & _). now rewrite map_length.
      - intros b s E. specialize (F b s E). fold (steps s). fold z. rewrite F. f_equal.
        pose proof (row_run_length_F _ _ _ _ _ F) as LL. unfold steps in LL. rewrite map_length, seq_length in LL.
        unfold rowb, rec. rewrite map_map. set (rr := nth b rrs []) in *.
        apply nth_ext with (d := dstep) (d' := dstep); [now rewrite map_length, seq_length|].
        intros i Hi. rewrite LL in Hi. 
        rewrite (nth_indep _ dstep (nth b (map (fun rr0 => nth 0 rr0 dstep) rrs) dstep)) at 1 by (rewrite LL; exact Hi).
        rewrite (nth_indep (map _ (seq 0 T)) dstep (nth b (map (fun rr0 => nth 0 rr0 dstep) rrs) dstep)) by (rewrite map_length, seq_length; exact Hi).
        rewrite (map_nth (fun t => nth b (map (fun rr0 => nth t rr0 dstep) rrs) dstep) (seq 0 T) 0%nat i).
        rewrite seq_nth by exact Hi. rewrite Nat.add_0_l.
        assert (Hb : (b < length rrs)%nat) by (rewrite LF; apply nth_error_Some; congruence).
        rewrite (nth_indep (map (fun rr0 => nth i rr0 dstep) rrs) dstep (nth i [] dstep)) by (rewrite map_length; exact Hb).
        rewrite (map_nth (fun rr0 => nth i rr0 dstep) rrs [] b). fold rr. apply nth_indep. rewrite LL. exact Hi. }
    eexists. eapply infer_intro_F; [exact R|].
    unfold rec. destruct T; [lia|]. discriminate.
Qed.

(** Outputs up to step T' depend only on the first T' inputs: any other samples that agree on them
    (in particular the truncated ones) give the same prefix. *)
Theorem C89_causal : forall l T T' samples samples' o rec,
  fl_seq l = true -> lstm_infer_f l T samples = Ok (OSeq o, rec) -> (1 <= T' <= T)%nat ->
  Forall2 (fun s s' => forall t, (t < T')%nat -> nth t s [] = nth t s' []) samples samples' ->
  lstm_infer_f l T' samples' = Ok (OSeq (map (firstn T') o), firstn T' rec).
Proof.
  intros l T T' ss ss' o rec Hq H HT A. apply infer_inv_F in H as (R & N & Ho). rewrite Hq in Ho. injection Ho as Ho.
  apply (run_steps_firstn_F l T') in R. rewrite timesteps_firstn in R by lia.
  rewrite (timesteps_agree T' (fl_input_zp l) _ _ A) in R.
  rewrite (infer_intro_F _ _ _ _ R).
  2:{ destruct rec; [congruence|]. destruct T'; [lia|]. discriminate. }
  rewrite Hq. f_equal. f_equal. f_equal. rewrite Ho.
  assert (L : length ss' = length ss) by (clear - A; induction A; simpl; congruence).
  rewrite map_map, L. apply map_ext. intros b. rewrite !map_map. now rewrite firstn_map.
Qed.

(** return_sequences=False returns exactly the last state of the full sequence. *)
Theorem C89_last_state : forall l T samples o rec,
  lstm_infer_f (with_seq_F l true) T samples = Ok (OSeq o, rec) ->
  length o = length samples /\ (forall x, In x o -> length x = T) /\
  lstm_infer_f (with_seq_F l false) T samples = Ok (OLast (map (fun x => last x []) o), rec).
Proof.
  intros l T ss o rec H.
  destruct (infer_sizes_F _ _ _ _ _ H) as (HT & HB & Hn).
  apply infer_inv_F in H as (R & N & Ho). cbn [fl_seq with_seq_F] in Ho. injection Ho as Ho.
  assert (E : forall sq h c xs, run_steps_f (with_seq_F l sq) h c xs = run_steps_f l h c xs).
  { intros sq h c xs. revert h c. induction xs as [|x xs IH]; intros h c; [reflexivity|]. cbn [run_steps_f].
    change (step_batch_f (with_seq_F l sq) h c x) with (step_batch_f l h c x).
    destruct (step_batch_f l h c x); [|reflexivity]. cbn [rbind]. now rewrite IH. }
  rewrite E in R. pose proof R as R0. rewrite <- (E false) in R0.
  change (fl_cells (with_seq_F l true)) with (fl_cells l) in R, Hn. change (fl_input_zp (with_seq_F l true)) with (fl_input_zp l) in R.
  apply (infer_rows_F l T ss rec HB Hn) in R. destruct R as (L & LB & R).
  split; [rewrite Ho, map_length, seq_length; reflexivity|]. split.
  { intros x Hx. rewrite Ho in Hx. apply in_map_iff in Hx as (b & <- & _). rewrite !map_length. exact L. }
  rewrite (infer_intro_F (with_seq_F l false) T ss rec R0 N). cbn [fl_seq with_seq_F]. f_equal. f_equal. f_equal.
  rewrite Ho, map_map.
  assert (G : forall rc : list (list step_rec), rc <> [] -> (forall st, In st rc -> length st = length ss) ->
    last (map (map s_hidden) rc) [] = map (fun b => last (map (fun step => nth b step []) (map (map s_hidden) rc)) []) (seq 0 (length ss))).
  { induction rc as [|st rc IH]; intros Nn Hin; [congruence|]. destruct rc as [|st2 rc2].
    - cbn [map last]. apply nth_ext with (d := []) (d' := []).
      + rewrite !map_length, seq_length. apply Hin. now left.
      + intros i Hi. rewrite map_length, (Hin st (or_introl eq_refl)) in Hi.
        rewrite (nth_indep (map _ (seq 0 (length ss))) [] (nth 0 (map s_hidden st) [])) by (rewrite map_length, seq_length; exact Hi).
        rewrite (map_nth (fun b => nth b (map s_hidden st) []) (seq 0 (length ss)) 0%nat i). now rewrite seq_nth by exact Hi.
    - specialize (IH ltac:(discriminate) ltac:(intros; apply Hin; now right)). exact IH. }
  apply G; assumption.
Qed.
(** Degenerate inputs raise. *)
Theorem C89_no_timesteps : forall l samples, lstm_infer_f l 0 samples = Err EIndexError.
Proof. reflexivity. Qed.
Theorem C89_empty_batch : forall l T, (0 < T)%nat -> lstm_infer_f l T [] = Err EValueError.
Proof. intros l [|T] H; [lia|]. reflexivity. Qed.

(** ** Ranges and totality *)
(** the scales that enter a gate's second multiplier *)
Record fair_recurrent (hidden : node) (g : gate_nodes) : Prop := {
  fg_rec_fair : fair (n_scale (gn_rec g)); fg_hidden_fair : fair (n_scale hidden); fg_radd_fair : fair (n_scale (gn_radd g));
  fg_zp_fair : Z.abs (zp0 (gn_radd g)) <= 2 ^ 63 }.
Lemma gate_fin input hidden gn g : build_gate_f input hidden gn = Ok g -> fair_recurrent hidden gn -> fin_gate g.
Proof.
  intros Hb [Fr Fh Fa Fz].
  unfold build_gate_f in Hb. repeat match type of Hb with rbind ?m _ = Ok _ => let D := fresh "D" in destruct m eqn:D; [cbn [rbind] in Hb|discriminate] end.
  match type of Hb with Ok ?t = _ => assert (E : g = t) by congruence end. rewrite E. split; cbn [fg_M2 fg_rzp]; [|exact Fz].
  unfold n_scale_f in *. match goal with D : py_div_f (fmul (Fin (n_scale (gn_rec gn))) _) _ = Ok _ |- _ => destruct (mult2 _ _ _ _ Fr Fh Fa D) as (y & Y & _) end.
  eauto.
Qed.
Lemma built_fin input hidden state act_in act_out gi gf gc go sq l :
  lstm_build_f input hidden state act_in act_out gi gf gc go sq = Ok l ->
  (forall g, In g [gi; gf; gc; go] -> fair_recurrent hidden g) -> fin_lstm l.
Proof.
  intros Hb F. destruct (build_f_fields _ _ _ _ _ _ _ _ _ _ _ Hb) as (B1 & B2 & B3 & B4 & _).
  split; [|split; [|split]]; (eapply gate_fin; [eassumption|]); apply F; cbn; tauto.
Qed.
Theorem C89_states_in_dtype : forall input hidden state act_in act_out gi gf gc go sq l T samples o rec,
  lstm_build_f input hidden state act_in act_out gi gf gc go sq = Ok l ->
  (forall g, In g [gi; gf; gc; go] -> fair_recurrent hidden g) -> int64_dtype (n_dtype (gn_radd gi)) ->
  gmin (n_dtype act_out) <= gmax (n_dtype act_out) -> gmin (n_dtype hidden) <= gmax (n_dtype hidden) ->
  lstm_infer_f l T samples = Ok (o, rec) ->
  forall step s, In step rec -> In s step ->
    (forall p, In p (s_pre s) -> all_in (n_dtype (gn_radd gi)) p) /\
    all_in (n_dtype act_out) (s_cell s) /\ all_in (n_dtype hidden) (s_hidden s).
Proof.
  intros input hidden state act_in act_out gi gf gc go sq l T ss o rec Hb Fg Hr Hs Hh H step s Hst Hin.
  assert (D := build_f_fields _ _ _ _ _ _ _ _ _ _ _ Hb). destruct D as (_ & _ & _ & _ & _ & _ & _ & _ & D1 & D2 & D3).
  rewrite <- D1, <- D2, <- D3 in *.
  apply infer_inv_F in H as (R & _ & _).
  destruct (run_steps_records_F _ _ _ _ _ R step s Hst Hin) as (h' & c' & x & E).
  destruct (step_row_in_F l h' c' x s (built_fin _ _ _ _ _ _ _ _ _ _ _ Hb Fg) Hr Hs Hh E) as ((_ & P) & (C & _) & (Hd & _)).
  split; [intros p Hp; apply P, Hp|]. split; assumption.
Qed.
(** and so do the returned outputs. *)
Theorem C89_outputs_in_dtype : forall input hidden state act_in act_out gi gf gc go sq l T samples o rec,
  lstm_build_f input hidden state act_in act_out gi gf gc go sq = Ok l ->
  (forall g, In g [gi; gf; gc; go] -> fair_recurrent hidden g) -> int64_dtype (n_dtype (gn_radd gi)) ->
  gmin (n_dtype act_out) <= gmax (n_dtype act_out) -> gmin (n_dtype hidden) <= gmax (n_dtype hidden) ->
  lstm_infer_f l T samples = Ok (o, rec) ->
  match o with
  | OSeq o => forall x y, In x o -> In y x -> all_in (n_dtype hidden) y
  | OLast o => forall y, In y o -> all_in (n_dtype hidden) y
  end.
Proof.
  intros input hidden state act_in act_out gi gf gc go sq l T ss o rec Hb Fg Hr Hs Hh H.
  pose proof (C89_states_in_dtype _ _ _ _ _ _ _ _ _ _ _ _ _ _ _ Hb Fg Hr Hs Hh H) as S.
  destruct (infer_sizes_F _ _ _ _ _ H) as (HT & HB & Hn).
  apply infer_inv_F in H as (R & N & Ho).
  apply (infer_rows_F l T ss rec HB Hn) in R as (L & LB & _).
  assert (G : forall step b, In step rec -> (b < length ss)%nat -> all_in (n_dtype hidden) (nth b (map s_hidden step) [])).
  { intros step b Hst Hbb. change [] with (s_hidden dstep). rewrite map_nth. apply (S step); [exact Hst|].
    apply nth_In. rewrite (LB step Hst). exact Hbb. }
  destruct (fl_seq l); subst o.
  - intros x y Hx Hy. apply in_map_iff in Hx as (b & <- & Hb2). apply in_seq in Hb2.
    rewrite map_map in Hy. apply in_map_iff in Hy as (step & <- & Hst). apply G; [exact Hst|lia].
  - intros y Hy.
    assert (E : exists step, In step rec /\ last (map (map s_hidden) rec) [] = map s_hidden step).
    { clear - N. induction rec as [|a r IH]; [congruence|]. destruct r as [|b r].
      - exists a. split; [now left|reflexivity].
      - destruct IH as (st & I1 & I2); [discriminate|]. exists st. split; [now right|exact I2]. }
    destruct E as (step & Hst & E). rewrite E in Hy. apply in_map_iff in Hy as (s & <- & Hin). apply (S step s Hst Hin).
Qed.

(** When the tables cover their dtypes and the shapes agree, inference never raises. *)
Theorem C89_never_raises : forall l f T samples, fin_lstm l ->
  int64_dtype (fl_rec_dtype l) -> gmin (fl_state_dtype l) <= gmax (fl_state_dtype l) ->
  gate_ok_F (fl_cells l) f (fl_in l) -> gate_ok_F (fl_cells l) f (fl_forget l) ->
  gate_ok_F (fl_cells l) f (fl_cell l) -> gate_ok_F (fl_cells l) f (fl_out l) ->
  covers (fl_in_lut l) (fl_rec_dtype l) -> covers (fl_forget_lut l) (fl_rec_dtype l) ->
  covers (fl_cell_lut l) (fl_rec_dtype l) -> covers (fl_out_lut l) (fl_rec_dtype l) ->
  covers (fl_state_lut l) (fl_state_dtype l) ->
  (0 < fl_cells l)%nat -> (0 < T)%nat -> samples <> [] ->
  (forall s t, In s samples -> (t < T)%nat -> length (nth t s []) = f) ->
  exists r, lstm_infer_f l T samples = Ok r.
Proof.
  intros l f T ss Fl Hr Hs G1 G2 G3 G4 C1 C2 C3 C4 C5 Hn HT Hne Hf.
  apply C89_batch_succeeds_iff; [exact Hne|]. intros s Hin.
  set (z := repeat 0 (fl_cells l)).
  assert (A : forall xs h c, length h = fl_cells l -> (forall x, In x xs -> length x = f) -> exists rr, row_run_f l h c xs = Ok rr).
  { induction xs as [|x xs IH]; intros h c Lh Hx; [eexists; reflexivity|]. cbn [row_run_f].
    destruct (step_row_ok_F l f h c x) as (s1 & -> & L1); try assumption; [apply Hx; now left|]. cbn [rbind].
    destruct (IH (s_hidden s1) (s_cell s1) L1) as (rr & ->); [intros; apply Hx; now right|]. eexists; reflexivity. }
  destruct (A (map (fun t => map (fun v => i64 (v - fl_input_zp l)) (nth t s [])) (seq 0 T)) z z) as (rr & E).
  { unfold z. apply repeat_length. }
  { intros x Hx. apply in_map_iff in Hx as (t & <- & Ht). apply in_seq in Ht. rewrite map_length. apply Hf; [exact Hin|lia]. }
  pose proof (row_run_length_F _ _ _ _ _ E) as LL. rewrite map_length, seq_length in LL.
  eexists. apply (infer_intro_F l T [s] (map (fun x => [x]) rr)).
  - apply infer_rows_F; [discriminate|lia|]. split; [now rewrite map_length|]. split.
    + intros x Hx. apply in_map_iff in Hx as (y & <- & _). reflexivity.
    + intros [|b] s' E'; [|destruct b; discriminate]. injection E' as <-. fold z. rewrite E. f_equal.
      unfold rowb. rewrite map_map. symmetry. apply map_id.
  - destruct rr; [simpl in LL; lia|discriminate].
Qed.

(** ** Concrete layers *)
(** the layer of PropFloatLstm.v (two samples of two steps): alone and in the batch, and its first step only *)
Example C89_example : exists lf, ex_lf = Ok lf /\ fin_lstm lf /\ (forall g, In g [ex_gi; ex_gf; ex_gc; ex_go] -> fair_recurrent ex_hidden g) /\
  (exists r, lstm_infer_f lf 2 ex_samples = Ok (OSeq [[[2]; [0]]; [[7]; [-95]]], r)) /\
  (exists r, lstm_infer_f lf 2 [[[5]; [4]]] = Ok (OSeq [[[7]; [-95]]], r)) /\
  (exists r, lstm_infer_f lf 1 ex_samples = Ok (OSeq [[[2]]; [[7]]], r)) /\
  (exists r, lstm_infer_f (with_seq_F lf false) 2 ex_samples = Ok (OLast [[0]; [-95]], r)).
Proof.
  destruct ex_lf as [lf|] eqn:E; [|vm_compute in E; discriminate E]. exists lf. split; [reflexivity|].
  assert (FR : forall g, In g [ex_gi; ex_gf; ex_gc; ex_go] -> fair_recurrent ex_hidden g).
  { intros g [<-|[<-|[<-|[<-|[]]]]]; (constructor; [exact fair_20|exact fair_37|exact fair_11|discriminate]). }
  split; [unfold ex_lf in E; exact (built_fin _ _ _ _ _ _ _ _ _ _ _ E FR)|]. split; [exact FR|].
  vm_compute in E. injection E as <-. repeat split; eexists; vm_compute; reflexivity.
Qed.
(** Scales whose quotient overflows: the second multiplier is infinite, 0 * inf is NaN, and its code is -2^63: outside the dtype, and outside
    the table.  (In exact arithmetic the same layer answers.) *)
Definition ov_gate : gate_nodes := mkgn (tnode 1 1) (tnode 1 1) (tnode 1 0) (enode (two_to (-600)) 0 int8) (lnode idf int8 0 0) (enode 1 0 int8).
Definition ov_hidden : node := enode (two_to 600) 0 int8.
Definition ov_node : node := enode 1 0 int8.
Theorem C89_overflow_refuted : exists input hidden state act_in act_out g l lf r,
  double (n_scale (gn_rec g)) /\ double (n_scale hidden) /\ double (n_scale (gn_radd g)) /\
  lstm_build input hidden state act_in act_out g g g g false = Ok l /\ lstm_build_f input hidden state act_in act_out g g g g false = Ok lf /\
  recurrent_row_f 1 int8 (fl_in lf) [0] [0] = Ok r /\ r = [- 2 ^ 63] /\ ~ all_in int8 r /\
  (exists o rec, lstm_infer l 1 [[[0]]] = Ok (o, rec)) /\ lstm_infer_f lf 1 [[[0]]] = Err EIndexError.
Proof.
  exists ov_node, ov_hidden, ov_node, (lnode idf int8 0 0), ov_node, ov_gate. eexists; eexists; eexists.
  split; [exists 1, 0; split; [reflexivity|split; [lia|vm_compute; reflexivity]]|].
  split; [exists 1, 600; split; [reflexivity|split; [lia|vm_compute; reflexivity]]|].
  split; [exists 1, (-600); split; [reflexivity|split; [lia|vm_compute; reflexivity]]|].
  split; [vm_compute; reflexivity|]. split; [vm_compute; reflexivity|]. split; [vm_compute; reflexivity|]. split; [vm_compute; reflexivity|].
  split; [intros H; specialize (H _ (or_introl eq_refl)) as [H _]; vm_compute in H; apply H; reflexivity|].
  split; [eexists; eexists; vm_compute; reflexivity|vm_compute; reflexivity].
Qed.
