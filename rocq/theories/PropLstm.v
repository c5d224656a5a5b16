(** Properties C24, C25, C51, C52: quantized LSTM. *)
From Verif Require Import Base BaseProofs DtypeModel QuantModel QuantProofs LutModel FcModel FcLayer EngineModel EngineProofs
  LstmModel LstmProofs PropCore PropFc PropEngine.
From Coq Require Import Lqa.
Open Scope Z_scope.
Open Scope list_scope.

(** ** C24 *)
Definition with_seq (l : lstm) (s : bool) : lstm :=
  mklstm (l_in l) (l_forget l) (l_cell l) (l_out l) (l_M3 l) (l_M4 l) (l_M5 l)
    (l_in_lut l) (l_forget_lut l) (l_cell_lut l) (l_out_lut l) (l_state_lut l)
    (l_input_zp l) (l_hidden_zp l) (l_in_zp l) (l_forget_zp l) (l_cellg_zp l) (l_out_zp l)
    (l_state_zp l) (l_act_zp l) (l_rec_dtype l) (l_state_dtype l) (l_hidden_dtype l) (l_cells l) s.
(** sample b of a result *)
Definition sample (b : nat) (o : lstm_out) : lstm_out :=
  match o with OSeq o => OSeq [nth b o []] | OLast o => OLast [nth b o []] end.

Lemma infer_inv l T ss o rec : lstm_infer l T ss = Ok (o, rec) ->
  run_steps l [repeat 0 (l_cells l)] [repeat 0 (l_cells l)] (timesteps T (l_input_zp l) ss) = Ok rec /\ rec <> [] /\
  o = (if l_seq l then OSeq (map (fun b => map (fun step => nth b step []) (map (map s_hidden) rec)) (seq 0 (length ss)))
       else OLast (last (map (map s_hidden) rec) [])).
Proof.
  unfold lstm_infer. destruct (run_steps _ _ _ _) as [r|]; [|discriminate]. cbn [rbind].
  destruct r as [|r0 r]; cbn [map]; [discriminate|]. intros H.
  match type of H with Ok (?a, ?b) = _ => assert (o = a /\ rec = b) as [-> ->] by (split; congruence) end.
  split; [reflexivity|]. split; [discriminate|]. reflexivity.
Qed.
Lemma infer_intro l T ss rec :
  run_steps l [repeat 0 (l_cells l)] [repeat 0 (l_cells l)] (timesteps T (l_input_zp l) ss) = Ok rec -> rec <> [] ->
  lstm_infer l T ss = Ok (if l_seq l then OSeq (map (fun b => map (fun step => nth b step []) (map (map s_hidden) rec)) (seq 0 (length ss)))
       else OLast (last (map (map s_hidden) rec) []), rec).
Proof.
  intros H N. unfold lstm_infer. rewrite H. cbn [rbind]. destruct rec as [|r0 r]; [congruence|]. reflexivity.
Qed.
Lemma infer_sizes l T ss o rec : lstm_infer l T ss = Ok (o, rec) -> (T <> 0 /\ length ss <> 0 /\ l_cells l <> 0)%nat.
Proof.
  intros H. apply infer_inv in H as (R & N & _).
  pose proof (run_steps_length _ _ _ _ _ R) as L. rewrite timesteps_length in L.
  destruct rec as [|r0 r]; [congruence|]. destruct (timesteps T (l_input_zp l) ss) as [|x xs] eqn:E; [discriminate|].
  apply run_steps_batch in R as (Lx & Ln). rewrite (timesteps_rows T (l_input_zp l) ss x) in Lx by (rewrite E; now left).
  simpl in L. lia.
Qed.
Lemma brow_single z b : brow [z] b = z. Proof. reflexivity. Qed.

(** The records of a call, row by row. *)
Lemma infer_rows l T ss rec : (length ss <> 0)%nat -> (l_cells l <> 0)%nat ->
  let z := repeat 0 (l_cells l) in
  run_steps l [z] [z] (timesteps T (l_input_zp l) ss) = Ok rec <->
  (length rec = T /\ (forall s, In s rec -> length s = length ss) /\
   forall b s, nth_error ss b = Some s ->
     row_run l z z (map (fun t => map (fun v => i64 (v - l_input_zp l)) (nth t s [])) (seq 0 T)) = Ok (rowb dstep b rec)).
Proof.
  intros Hs Hn z. rewrite (run_steps_iff l (length ss) Hs Hn).
  2:{ intros x Hx. eapply timesteps_rows; exact Hx. }
  rewrite timesteps_length. split; intros (A & B & C); split; try exact A; split; try exact B.
  - intros b s E. rewrite <- (timesteps_row T (l_input_zp l) ss b s E). apply C. apply nth_error_Some. congruence.
  - intros b Hb. destruct (nth_error ss b) as [s|] eqn:E; [|apply nth_error_None in E; lia].
    rewrite !brow_single, (timesteps_row T (l_input_zp l) ss b s E). apply C, E.
Qed.

Lemma rowb_single (A B : Type) (d : B) b (rec : list (list A)) (f : A -> B) (da : A) :
  map (fun step => nth b step d) (map (map f) rec) = map (fun step => nth b (map f step) d) rec.
Proof. now rewrite map_map. Qed.

(** Each element of a batch is inferred as if it were alone (results and recorded tensors). *)
Theorem C24_batch_independent : forall l T samples o rec b s,
  lstm_infer l T samples = Ok (o, rec) -> nth_error samples b = Some s ->
  exists rec', lstm_infer l T [s] = Ok (sample b o, rec') /\
               rec' = map (fun step => [nth b step dstep]) rec.
Proof.
  intros l T ss o rec b s H Hb.
  destruct (infer_sizes _ _ _ _ _ H) as (HT & HB & Hn).
  apply infer_inv in H as (R & N & Ho).
  assert (Hbl : (b < length ss)%nat) by (apply nth_error_Some; congruence).
  apply (infer_rows l T ss rec HB Hn) in R. destruct R as (L & LB & R). specialize (R b s Hb).
  set (rec' := map (fun step => [nth b step dstep]) rec). exists rec'. split; [|reflexivity].
  assert (R' : run_steps l [repeat 0 (l_cells l)] [repeat 0 (l_cells l)] (timesteps T (l_input_zp l) [s]) = Ok rec').
  { apply infer_rows; [discriminate|exact Hn|]. split; [unfold rec'; rewrite map_length; exact L|]. split.
    - intros x Hx. apply in_map_iff in Hx as (y & <- & _). reflexivity.
    - intros [|b'] s' E; [|destruct b'; discriminate]. injection E as <-. rewrite R. f_equal.
      unfold rowb, rec'. rewrite map_map. reflexivity. }
  rewrite (infer_intro _ _ _ _ R') by (unfold rec'; destruct rec; [congruence|discriminate]).
  f_equal. f_equal. rewrite Ho.
  assert (Hnth : forall step, In step rec -> nth b (map s_hidden step) [] = s_hidden (nth b step dstep)).
  { intros step Hst. change [] with (s_hidden dstep). apply map_nth. }
  destruct (l_seq l); cbn [sample].
  - f_equal. cbn [length seq map]. f_equal.
    rewrite (nth_indep _ [] (map (fun step => nth 0 step []) (map (map s_hidden) rec))) by (rewrite map_length, seq_length; lia).
    rewrite (map_nth (fun b0 => map (fun step => nth b0 step []) (map (map s_hidden) rec)) (seq 0 (length ss)) 0%nat b).
    rewrite seq_nth by lia. rewrite Nat.add_0_l. unfold rec'. rewrite !map_map. apply map_ext_in.
    intros step Hst. cbn [map nth]. now rewrite Hnth.
  - f_equal.
    assert (G : forall rc : list (list step_rec), rc <> [] -> (forall st, In st rc -> In st rec) ->
      last (map (map s_hidden) (map (fun step => [nth b step dstep]) rc)) [] = [nth b (last (map (map s_hidden) rc) []) []]).
    { induction rc as [|st rc IH]; intros Nn Hin; [congruence|]. destruct rc as [|st2 rc2].
      - cbn [map last]. now rewrite Hnth by (apply Hin; now left).
      - specialize (IH ltac:(discriminate) ltac:(intros; apply Hin; now right)). exact IH. }
    unfold rec'. apply G; [exact N|auto].
Qed.

(** A batch fails only if one of its elements fails alone. *)
Theorem C24_batch_succeeds_iff : forall l T samples, samples <> [] ->
  ((exists r, lstm_infer l T samples = Ok r) <->
   (forall s, In s samples -> exists r, lstm_infer l T [s] = Ok r)).
Proof.
  intros l T ss Hne. split.
  - intros ((o & rec) & H) s Hs. apply In_nth_error in Hs as (b & Hb).
    destruct (C24_batch_independent _ _ _ _ _ _ _ H Hb) as (rec' & E & _). eauto.
  - intros H. assert (HB : (length ss <> 0)%nat) by (destruct ss; simpl; congruence).
    assert (P : exists s0, In s0 ss) by (destruct ss as [|a r]; [congruence|exists a; now left]).
    destruct P as (s0 & Hs0). destruct (H s0 Hs0) as ((o0 & rec0) & E0).
    destruct (infer_sizes _ _ _ _ _ E0) as (HT & _ & Hn). clear o0 rec0 E0 s0 Hs0.
    set (z := repeat 0 (l_cells l)).
    set (steps s := map (fun t => map (fun v => i64 (v - l_input_zp l)) (nth t s [])) (seq 0 T)).
    assert (Q1 : forall s, In s ss -> exists rr, row_run l z z (steps s) = Ok rr).
    { intros s Hs. destruct (H s Hs) as ((o & rec) & E). apply infer_inv in E as (R & _ & _).
      apply (infer_rows l T [s] rec ltac:(discriminate) Hn) in R. destruct R as (_ & _ & R). eexists. exact (R 0%nat s eq_refl). }
    assert (Q2 : exists rrs, Forall2 (fun s rr => row_run l z z (steps s) = Ok rr) ss rrs).
    { clear - Q1. induction ss as [|s ss IH]; [exists []; constructor|].
      destruct (Q1 s (or_introl eq_refl)) as (rr & E). destruct IH as (rrs & F); [intros; apply Q1; now right|].
      exists (rr :: rrs). constructor; assumption. }
    destruct Q2 as (rrs & F). apply (Forall2_nth_iff _ _ _ []) in F as (LF & F).
    set (rec := map (fun t => map (fun rr => nth t rr dstep) rrs) (seq 0 T)).
    assert (R : run_steps l [z] [z] (timesteps T (l_input_zp l) ss) = Ok rec).
    { apply infer_rows; [exact HB|exact Hn|]. split; [unfold rec; now rewrite map_length, seq_length|]. split.
      - intros x Hx. apply in_map_iff in Hx as (t & <- & _). now rewrite map_length.
      - intros b s E. specialize (F b s E). fold (steps s). fold z. rewrite F. f_equal.
        pose proof (row_run_length _ _ _ _ _ F) as LL. unfold steps in LL. rewrite map_length, seq_length in LL.
        unfold rowb, rec. rewrite map_map. set (rr := nth b rrs []) in *.
        apply nth_ext with (d := dstep) (d' := dstep); [now rewrite map_length, seq_length|].
        intros i Hi. rewrite LL in Hi. 
        rewrite (nth_indep _ dstep (nth b (map (fun rr0 => nth 0 rr0 dstep) rrs) dstep)) at 1 by (rewrite LL; exact Hi).
        rewrite (nth_indep (map _ (seq 0 T)) dstep (nth b (map (fun rr0 => nth 0 rr0 dstep) rrs) dstep)) by (rewrite map_length, seq_length; exact Hi).
        rewrite (map_nth (fun t => nth b (map (fun rr0 => nth t rr0 dstep) rrs) dstep) (seq 0 T) 0%nat i).
        rewrite seq_nth by exact Hi. rewrite Nat.add_0_l.
        assert (Hb : (b < length rrs)%nat) by (rewrite LF; apply nth_error_Some; congruence).
        rewrite (nth_indep (map (fun rr0 => nth i rr0 dstep) rrs) dstep (nth i [] dstep)) by (rewrite map_length; exact Hb).
        rewrite (map_nth (fun rr0 => nth i rr0 dstep) rrs [] b). fold rr. apply nth_indep. rewrite LL. exact Hi. }
    eexists. eapply infer_intro; [exact R|].
    unfold rec. destruct T; [lia|]. discriminate.
Qed.

(** Outputs up to step T' depend only on the first T' inputs: any other samples that agree on them
    (in particular the truncated ones) give the same prefix. *)
Theorem C24_causal : forall l T T' samples samples' o rec,
  l_seq l = true -> lstm_infer l T samples = Ok (OSeq o, rec) -> (1 <= T' <= T)%nat ->
  Forall2 (fun s s' => forall t, (t < T')%nat -> nth t s [] = nth t s' []) samples samples' ->
  lstm_infer l T' samples' = Ok (OSeq (map (firstn T') o), firstn T' rec).
Proof.
  intros l T T' ss ss' o rec Hq H HT A. apply infer_inv in H as (R & N & Ho). rewrite Hq in Ho. injection Ho as Ho.
  apply (run_steps_firstn l T') in R. rewrite timesteps_firstn in R by lia.
  rewrite (timesteps_agree T' (l_input_zp l) _ _ A) in R.
  rewrite (infer_intro _ _ _ _ R).
  2:{ destruct rec; [congruence|]. destruct T'; [lia|]. discriminate. }
  rewrite Hq. f_equal. f_equal. f_equal. rewrite Ho.
  assert (L : length ss' = length ss) by (clear - A; induction A; simpl; congruence).
  rewrite map_map, L. apply map_ext. intros b. rewrite !map_map. now rewrite firstn_map.
Qed.

(** return_sequences=False returns exactly the last state of the full sequence. *)
Theorem C24_last_state : forall l T samples o rec,
  lstm_infer (with_seq l true) T samples = Ok (OSeq o, rec) ->
  length o = length samples /\ (forall x, In x o -> length x = T) /\
  lstm_infer (with_seq l false) T samples = Ok (OLast (map (fun x => last x []) o), rec).
Proof.
  intros l T ss o rec H.
  destruct (infer_sizes _ _ _ _ _ H) as (HT & HB & Hn).
  apply infer_inv in H as (R & N & Ho). cbn [l_seq with_seq] in Ho. injection Ho as Ho.
  assert (E : forall sq h c xs, run_steps (with_seq l sq) h c xs = run_steps l h c xs).
  { intros sq h c xs. revert h c. induction xs as [|x xs IH]; intros h c; [reflexivity|]. cbn [run_steps].
    change (step_batch (with_seq l sq) h c x) with (step_batch l h c x).
    destruct (step_batch l h c x); [|reflexivity]. cbn [rbind]. now rewrite IH. }
  rewrite E in R. pose proof R as R0. rewrite <- (E false) in R0.
  change (l_cells (with_seq l true)) with (l_cells l) in R, Hn. change (l_input_zp (with_seq l true)) with (l_input_zp l) in R.
  apply (infer_rows l T ss rec HB Hn) in R. destruct R as (L & LB & R).
  split; [rewrite Ho, map_length, seq_length; reflexivity|]. split.
  { intros x Hx. rewrite Ho in Hx. apply in_map_iff in Hx as (b & <- & _). rewrite !map_length. exact L. }
  rewrite (infer_intro (with_seq l false) T ss rec R0 N). cbn [l_seq with_seq]. f_equal. f_equal. f_equal.
  rewrite Ho, map_map.
  assert (G : forall rc : list (list step_rec), rc <> [] -> (forall st, In st rc -> length st = length ss) ->
    last (map (map s_hidden) rc) [] = map (fun b => last (map (fun step => nth b step []) (map (map s_hidden) rc)) []) (seq 0 (length ss))).
  { induction rc as [|st rc IH]; intros Nn Hin; [congruence|]. destruct rc as [|st2 rc2].
    - cbn [map last]. apply nth_ext with (d := []) (d' := []).
      + rewrite !map_length, seq_length. apply Hin. now left.
      + intros i Hi. rewrite map_length, (Hin st (or_introl eq_refl)) in Hi.
        rewrite (nth_indep (map _ (seq 0 (length ss))) [] (nth 0 (map s_hidden st) [])) by (rewrite map_length, seq_length; exact Hi).
        rewrite (map_nth (fun b => nth b (map s_hidden st) []) (seq 0 (length ss)) 0%nat i). now rewrite seq_nth by exact Hi.
    - specialize (IH ltac:(discriminate) ltac:(intros; apply Hin; now right)). exact IH. }
  apply G; assumption.
Qed.
(** Degenerate inputs raise. *)
Theorem C24_no_timesteps : forall l samples, lstm_infer l 0 samples = Err EIndexError.
Proof. reflexivity. Qed.
Theorem C24_empty_batch : forall l T, (0 < T)%nat -> lstm_infer l T [] = Err EValueError.
Proof. intros l [|T] H; [lia|]. reflexivity. Qed.

(** ** C25 *)
(** Every recorded pre-activation, cell and hidden state lies in the dtype the layer was built with:
    that of the FIRST gate's recurrent_add node, of the cell-state ACTIVATION output node and of the
    hidden state node. *)
Theorem C25_states_in_dtype : forall input hidden state act_in act_out gi gf gc go sq l T samples o rec,
  lstm_build input hidden state act_in act_out gi gf gc go sq = Ok l ->
  int64_dtype (n_dtype (gn_radd gi)) ->
  gmin (n_dtype act_out) <= gmax (n_dtype act_out) -> gmin (n_dtype hidden) <= gmax (n_dtype hidden) ->
  lstm_infer l T samples = Ok (o, rec) ->
  forall step s, In step rec -> In s step ->
    (forall p, In p (s_pre s) -> all_in (n_dtype (gn_radd gi)) p) /\
    all_in (n_dtype act_out) (s_cell s) /\ all_in (n_dtype hidden) (s_hidden s).
Proof.
  intros input hidden state act_in act_out gi gf gc go sq l T ss o rec Hb Hr Hs Hh H step s Hst Hin.
  assert (D : l_rec_dtype l = n_dtype (gn_radd gi) /\ l_state_dtype l = n_dtype act_out /\ l_hidden_dtype l = n_dtype hidden).
  { unfold lstm_build in Hb. cbv zeta in Hb.
    repeat match type of Hb with rbind ?m _ = Ok _ => destruct m; [cbn [rbind] in Hb|discriminate] end.
    match type of Hb with Ok ?t = _ => assert (E : l = t) by congruence end. rewrite E. repeat split. }
  destruct D as (D1 & D2 & D3). rewrite <- D1, <- D2, <- D3 in *.
  apply infer_inv in H as (R & _ & _).
  destruct (run_steps_records _ _ _ _ _ R step s Hst Hin) as (h' & c' & x & E).
  destruct (step_row_in l h' c' x s Hr Hs Hh E) as ((_ & P) & (C & _) & (Hd & _)).
  split; [intros p Hp; apply P, Hp|]. split; assumption.
Qed.
(** and so do the returned outputs. *)
Theorem C25_outputs_in_dtype : forall input hidden state act_in act_out gi gf gc go sq l T samples o rec,
  lstm_build input hidden state act_in act_out gi gf gc go sq = Ok l ->
  int64_dtype (n_dtype (gn_radd gi)) ->
  gmin (n_dtype act_out) <= gmax (n_dtype act_out) -> gmin (n_dtype hidden) <= gmax (n_dtype hidden) ->
  lstm_infer l T samples = Ok (o, rec) ->
  match o with
  | OSeq o => forall x y, In x o -> In y x -> all_in (n_dtype hidden) y
  | OLast o => forall y, In y o -> all_in (n_dtype hidden) y
  end.
Proof.
  intros input hidden state act_in act_out gi gf gc go sq l T ss o rec Hb Hr Hs Hh H.
  pose proof (C25_states_in_dtype _ _ _ _ _ _ _ _ _ _ _ _ _ _ _ Hb Hr Hs Hh H) as S.
  destruct (infer_sizes _ _ _ _ _ H) as (HT & HB & Hn).
  apply infer_inv in H as (R & N & Ho).
  apply (infer_rows l T ss rec HB Hn) in R as (L & LB & _).
  assert (G : forall step b, In step rec -> (b < length ss)%nat -> all_in (n_dtype hidden) (nth b (map s_hidden step) [])).
  { intros step b Hst Hbb. change [] with (s_hidden dstep). rewrite map_nth. apply (S step); [exact Hst|].
    apply nth_In. rewrite (LB step Hst). exact Hbb. }
  destruct (l_seq l); subst o.
  - intros x y Hx Hy. apply in_map_iff in Hx as (b & <- & Hb2). apply in_seq in Hb2.
    rewrite map_map in Hy. apply in_map_iff in Hy as (step & <- & Hst). apply G; [exact Hst|lia].
  - intros y Hy.
    assert (E : exists step, In step rec /\ last (map (map s_hidden) rec) [] = map s_hidden step).
    { clear - N. induction rec as [|a r IH]; [congruence|]. destruct r as [|b r].
      - exists a. split; [now left|reflexivity].
      - destruct IH as (st & I1 & I2); [discriminate|]. exists st. split; [now right|exact I2]. }
    destruct E as (step & Hst & E). rewrite E in Hy. apply in_map_iff in Hy as (s & <- & Hin). apply (S step s Hst Hin).
Qed.

(** When the tables cover their dtypes and the shapes agree, inference never raises. *)
Theorem C25_never_raises : forall l f T samples,
  int64_dtype (l_rec_dtype l) -> gmin (l_state_dtype l) <= gmax (l_state_dtype l) ->
  gate_ok (l_cells l) f (l_in l) -> gate_ok (l_cells l) f (l_forget l) ->
  gate_ok (l_cells l) f (l_cell l) -> gate_ok (l_cells l) f (l_out l) ->
  covers (l_in_lut l) (l_rec_dtype l) -> covers (l_forget_lut l) (l_rec_dtype l) ->
  covers (l_cell_lut l) (l_rec_dtype l) -> covers (l_out_lut l) (l_rec_dtype l) ->
  covers (l_state_lut l) (l_state_dtype l) ->
  (0 < l_cells l)%nat -> (0 < T)%nat -> samples <> [] ->
  (forall s t, In s samples -> (t < T)%nat -> length (nth t s []) = f) ->
  exists r, lstm_infer l T samples = Ok r.
Proof.
  intros l f T ss Hr Hs G1 G2 G3 G4 C1 C2 C3 C4 C5 Hn HT Hne Hf.
  apply C24_batch_succeeds_iff; [exact Hne|]. intros s Hin.
  set (z := repeat 0 (l_cells l)).
  assert (A : forall xs h c, length h = l_cells l -> (forall x, In x xs -> length x = f) -> exists rr, row_run l h c xs = Ok rr).
  { induction xs as [|x xs IH]; intros h c Lh Hx; [eexists; reflexivity|]. cbn [row_run].
    destruct (step_row_ok l f h c x) as (s1 & -> & L1); try assumption; [apply Hx; now left|]. cbn [rbind].
    destruct (IH (s_hidden s1) (s_cell s1) L1) as (rr & ->); [intros; apply Hx; now right|]. eexists; reflexivity. }
  destruct (A (map (fun t => map (fun v => i64 (v - l_input_zp l)) (nth t s [])) (seq 0 T)) z z) as (rr & E).
  { unfold z. apply repeat_length. }
  { intros x Hx. apply in_map_iff in Hx as (t & <- & Ht). apply in_seq in Ht. rewrite map_length. apply Hf; [exact Hin|lia]. }
  pose proof (row_run_length _ _ _ _ _ E) as LL. rewrite map_length, seq_length in LL.
  eexists. apply (infer_intro l T [s] (map (fun x => [x]) rr)).
  - apply infer_rows; [discriminate|lia|]. split; [now rewrite map_length|]. split.
    + intros x Hx. apply in_map_iff in Hx as (y & <- & _). reflexivity.
    + intros [|b] s' E'; [|destruct b; discriminate]. injection E' as <-. fold z. rewrite E. f_equal.
      unfold rowb. rewrite map_map. symmetry. apply map_id.
  - destruct rr; [simpl in LL; lia|discriminate].
Qed.
(** A LUT built for dtype d by the quantizer covers d (so the hypothesis above is met). *)
Theorem C25_luts_cover : forall d f is iz os oz a, gmin d <= gmax d ->
  lut_from_node (Some (json_plain d f is iz os oz)) = Ok a -> covers a d.
Proof.
  intros d f is iz os oz a Hd H q Hq. injection H as <-. cbn [la_table la_offset lookup].
  eexists. apply py_index_in_range; [lia|]. replace (q + - gmin d) with (q - gmin d) by lia. apply table_nth. exact Hq.
Qed.

(** ** C51: one step is accurate *)
(** the clip of the model is the clip of the specification *)
Lemma clipQ_clampQ lo hi x : clipQ lo hi x = clampQ lo hi x. Proof. reflexivity. Qed.
Lemma clampQ_lip lo hi x y e : lo <= hi -> (Qabs (x - y) <= e)%Q -> (Qabs (clampQ lo hi x - clampQ lo hi y) <= e)%Q.
Proof.
  intros L H. apply Qabs_Qle_condition in H. apply Qabs_Qle_condition.
  assert (LQ : (inject_Z lo <= inject_Z hi)%Q) by (apply (proj1 (Zle_inj _ _)); exact L). unfold clampQ.
  destruct (Qlt_le_dec x (inject_Z lo)), (Qlt_le_dec y (inject_Z lo)); try lra;
  destruct (Qlt_le_dec (inject_Z hi) x), (Qlt_le_dec (inject_Z hi) y); lra.
Qed.
Lemma to_i64_near x : (inject_Z (- 2 ^ 63) <= x <= inject_Z (2 ^ 63 - 1))%Q -> (Qabs (inject_Z (to_i64 x) - x) < 1)%Q.
Proof.
  intros [A B]. unfold to_i64, cast_i64.
  assert (R : - 2 ^ 63 <= Qtrunc x <= 2 ^ 63 - 1).
  { unfold Qtrunc. destruct (Qle_bool 0 x).
    - split; [rewrite <- (Qfloor_inject (- 2 ^ 63))|rewrite <- (Qfloor_inject (2 ^ 63 - 1))]; apply Qfloor_resp_le; assumption.
    - split; [rewrite <- (Qceiling_Z (- 2 ^ 63))|rewrite <- (Qceiling_Z (2 ^ 63 - 1))]; apply Qceiling_resp_le; assumption. }
  replace ((- 2 ^ 63 <=? Qtrunc x) && (Qtrunc x <=? 2 ^ 63 - 1)) with true.
  - apply Qtrunc_near.
  - symmetry. apply andb_true_iff. split; apply Z.leb_le; lia.
Qed.
Definition small_Z (v : Z) : Prop := Z.abs v <= 2 ^ 62.
Definition small_Q (v : Q) : Prop := (Qabs v <= inject_Z (2 ^ 62))%Q.
Lemma small_Q_i64 v : small_Q v -> (inject_Z (- 2 ^ 63) <= v <= inject_Z (2 ^ 63 - 1))%Q.
Proof.
  intros H. apply Qabs_Qle_condition in H as [A B].
  assert (inject_Z (2 ^ 62) <= inject_Z (2 ^ 63 - 1))%Q by (apply (proj1 (Zle_inj _ _)); lia).
  assert (inject_Z (- 2 ^ 63) <= - inject_Z (2 ^ 62))%Q by (rewrite <- inject_Z_opp; apply (proj1 (Zle_inj _ _)); lia).
  split; lra.
Qed.

(** Gate pre-activation of cell j for input row x (already centred by the input zero point) and
    hidden codes h.  [real_pre] is the real-valued pre-activation expressed in recurrent_add codes:
    (kernel and bias in scale ks*is, recurrent kernel in scale rks*hs). *)
Definition dot_col (j : nat) (x : list Z) (k : list (list Z)) : Z := sumZ (map2 (fun a r => a * nth j r 0) x k).
Definition real_pre (ks is rks hs ras : Q) (rzp : Z) (kacc racc : Z) : Q :=
  ((ks * is * inject_Z kacc + rks * hs * inject_Z racc) / ras + inject_Z rzp)%Q.

Lemma py_div_inv a b r : py_div a b = Ok r -> ~ (b == 0)%Q /\ r = (a / b)%Q.
Proof.
  unfold py_div. destruct (Qeq_bool b 0) eqn:E; [discriminate|]. apply Qeq_bool_neq in E. intros H. split; [exact E|congruence].
Qed.

Theorem C51_preactivation : forall input hidden gn g n d x h b r,
  build_gate input hidden gn = Ok g ->
  let ks := n_scale (gn_kernel gn) in let is := n_scale input in
  let rks := n_scale (gn_rec gn) in let hs := n_scale hidden in let ras := n_scale (gn_radd gn) in
  (0 < ks)%Q -> (0 < is)%Q -> (0 < rks)%Q -> (0 < hs)%Q -> (0 < ras)%Q -> int64_dtype d ->
  bias_add_row n g x = Ok b -> recurrent_row n d g h b = Ok r ->
  forall j, (j < n)%nat ->
    let kacc := dot_col j x (g_kernel g) + nth j (g_bias g) 0 in
    let racc := dot_col j h (g_rec g) in
    small_Z (dot_col j x (g_kernel g)) -> small_Z (nth j (g_bias g) 0) -> small_Z kacc -> small_Z (racc * 2) ->
    small_Q (g_M1 g * inject_Z kacc * 2) ->
    (Qabs (inject_Z (nth j r 0%Z) - clampQ (gmin d) (gmax d) (real_pre ks is rks hs ras (zp0 (gn_radd gn)) kacc racc))
     <= 1 + rks * hs / ras)%Q.
Proof.
  intros input hidden gn g n d x h b r Hb ks is rks hs ras Pk Pi Pr Ph Pa (D1 & D2 & D3) Eb Er j Hj kacc racc S1 S2 S3 S4 S5.
  assert (GM : g_M1 g = (ks * is / (hs * rks))%Q /\ g_M2 g = (rks * hs / ras)%Q /\ g_rzp g = zp0 (gn_radd gn)).
  { unfold build_gate in Hb. repeat match type of Hb with rbind ?m _ = Ok _ => let D := fresh "D" in destruct m eqn:D; [cbn [rbind] in Hb|discriminate] end;
    repeat match goal with D : py_div _ _ = Ok _ |- _ => apply py_div_inv in D as (_ & D); rewrite D in Hb; clear D end.
    match type of Hb with Ok ?t = _ => assert (E : g = t) by congruence end. rewrite E. repeat split. }
  destruct GM as (M1 & M2 & RZ).
  unfold bias_add_row in Eb. unfold vecmat in Eb. destruct (length x =? length (g_kernel g))%nat; [|discriminate]. cbn [rbind] in Eb.
  match type of Eb with Ok ?t = _ => assert (Eb' : b = t) by congruence end. clear Eb.
  unfold recurrent_row, vecmat in Er. destruct (length h =? length (g_rec g))%nat; [|discriminate]. cbn [rbind] in Er.
  match type of Er with Ok ?t = _ => assert (Er' : r = t) by congruence end. clear Er.
  assert (NM : forall (F : nat -> Z), nth j (map F (seq 0 n)) 0 = F j).
  { intros F. rewrite (nth_indep _ 0 (F 0%nat)) by (now rewrite map_length, seq_length).
    rewrite map_nth. now rewrite seq_nth by exact Hj. }
  set (ba := to_i64 (g_M1 g * inject_Z kacc)).
  assert (Bj : nth j b 0 = ba).
  { rewrite Eb', NM, NM. unfold ba. unfold small_Z in S1, S2, S3. fold (dot_col j x (g_kernel g)).
    rewrite (i64_id (dot_col j x (g_kernel g))) by lia. fold kacc. rewrite (i64_id kacc) by lia. reflexivity. }
  assert (Bn : (Qabs (inject_Z ba - g_M1 g * inject_Z kacc) < 1)%Q).
  { apply to_i64_near, small_Q_i64. unfold small_Q in *. eapply Qle_trans; [|exact S5].
    rewrite (Qabs_Qmult (g_M1 g * inject_Z kacc) 2). change (Qabs 2) with 2%Q.
    pose proof (Qabs_nonneg (g_M1 g * inject_Z kacc)). lra. }
  assert (Bs : Z.abs ba <= 2 ^ 61 + 1).
  { unfold small_Q in S5. rewrite (Qabs_Qmult (g_M1 g * inject_Z kacc) 2) in S5. change (Qabs 2) with 2%Q in S5.
    assert (T : (Qabs (inject_Z ba) < inject_Z (2 ^ 61 + 2))%Q).
    { setoid_replace (inject_Z ba) with ((inject_Z ba - g_M1 g * inject_Z kacc) + g_M1 g * inject_Z kacc)%Q by ring.
      eapply Qle_lt_trans; [apply Qabs_triangle|].
      assert (E61 : (inject_Z (2 ^ 62) == 2 * inject_Z (2 ^ 61))%Q) by reflexivity.
      rewrite inject_Z_plus. change (inject_Z 2) with 2%Q. rewrite E61 in S5. lra. }
    assert (U : inject_Z (Z.abs ba) = Qabs (inject_Z ba)) by reflexivity.
    rewrite <- U in T. apply Zlt_inj in T. lia. }
  assert (Rj : nth j r 0 = to_i64 (clipQ (gmin d) (gmax d) (inject_Z (racc + ba) * g_M2 g + inject_Z (g_rzp g)))).
  { rewrite Er', NM, NM, Bj. unfold small_Z in S4. fold (dot_col j h (g_rec g)). fold racc.
    rewrite (i64_id racc) by lia. rewrite (i64_id (racc + ba)) by lia. reflexivity. }
  rewrite Rj. set (v := (inject_Z (racc + ba) * g_M2 g + inject_Z (g_rzp g))%Q).
  set (ref := real_pre ks is rks hs ras (zp0 (gn_radd gn)) kacc racc).
  assert (PM2 : (0 < rks * hs / ras)%Q).
  { apply Qlt_shift_div_l; [exact Pa|]. rewrite Qmult_0_l. apply Qmult_lt_0_compat; assumption. }
  assert (V : (Qabs (v - ref) <= rks * hs / ras)%Q).
  { assert (E : (v - ref == (inject_Z ba - g_M1 g * inject_Z kacc) * (rks * hs / ras))%Q).
    { unfold v, ref, real_pre. rewrite M1, M2, RZ, inject_Z_plus. field. repeat split; lra. }
    rewrite E, Qabs_Qmult, (Qabs_pos (rks * hs / ras)) by lra.
    setoid_replace (rks * hs / ras)%Q with (1 * (rks * hs / ras))%Q at 2 by ring.
    apply Qmult_le_compat_r; lra. }
  apply (clampQ_lip (gmin d) (gmax d)) in V; [|exact D2].
  assert (C : (Qabs (inject_Z (to_i64 (clipQ (gmin d) (gmax d) v)) - clampQ (gmin d) (gmax d) v) < 1)%Q).
  { rewrite clipQ_clampQ. apply to_i64_near.
    assert (LQ : (inject_Z (gmin d) <= inject_Z (gmax d))%Q) by (apply (proj1 (Zle_inj _ _)); exact D2).
    assert (LA : (inject_Z (- 2 ^ 63) <= inject_Z (gmin d))%Q) by (apply (proj1 (Zle_inj _ _)); exact D1).
    assert (LB : (inject_Z (gmax d) <= inject_Z (2 ^ 63 - 1))%Q) by (apply (proj1 (Zle_inj _ _)); exact D3).
    unfold clampQ. destruct (Qlt_le_dec v (inject_Z (gmin d))); [lra|]. destruct (Qlt_le_dec (inject_Z (gmax d)) v); lra. }
  apply Qabs_Qle_condition in V. apply Qabs_Qlt_condition in C. apply Qabs_Qle_condition. split; lra.
Qed.

(** New cell state code of one cell against the real-valued update
    c' = f*c + i*g, all operands given by their codes and their nodes' scales and zero points. *)
Theorem C51_cell_state : forall input hidden state act_in act_out gi gf gc go sq l f c i g,
  lstm_build input hidden state act_in act_out gi gf gc go sq = Ok l ->
  (0 < n_scale state)%Q -> gmin (n_dtype act_out) <= gmax (n_dtype act_out) ->
  let val n q := (n_scale n * inject_Z (q - zp0 n))%Q in
  let real := (val (gn_out gf) f * val state c + val (gn_out gi) i * val (gn_out gc) g)%Q in
  let code := (real / n_scale state + inject_Z (zp0 state))%Q in
  small_Q code ->
  (Qabs (inject_Z (cell1 l f c i g) - clampQ (gmin (n_dtype act_out)) (gmax (n_dtype act_out)) code) <= 1)%Q.
Proof.
  intros input hidden state act_in act_out gi gf gc go sq l f c i g Hb Ps Hd val real code Sm.
  unfold lstm_build in Hb. cbv zeta in Hb.
  repeat match type of Hb with rbind ?m _ = Ok _ => let D := fresh "D" in destruct m eqn:D; [cbn [rbind] in Hb|discriminate] end;
    repeat match goal with D : py_div _ _ = Ok _ |- _ => apply py_div_inv in D as (_ & D); rewrite D in Hb; clear D end.
  match type of Hb with Ok ?t = _ => assert (E : l = t) by congruence end. rewrite E. clear Hb E.
  unfold cell1. cbn [l_state_dtype l_state_zp l_forget_zp l_M3 l_in_zp l_cellg_zp l_M4].
  match goal with |- context [to_i64 ?x] => assert (X : (x == code)%Q) end.
  { unfold code, real, val. rewrite inject_Z_mult. field. lra. }
  rewrite <- clamp_clip by exact Hd. apply clampQ_close; [exact Hd|].
  match goal with |- context [to_i64 ?x] => assert (Y : (Qabs (inject_Z (to_i64 x) - x) < 1)%Q) end.
  { apply to_i64_near. rewrite X. apply small_Q_i64, Sm. }
  rewrite X in Y at 2. apply Qlt_le_weak. exact Y.
Qed.
(** New hidden state code against h = o * act(c'). *)
Theorem C51_hidden_state : forall input hidden state act_in act_out gi gf gc go sq l o a,
  lstm_build input hidden state act_in act_out gi gf gc go sq = Ok l ->
  (0 < n_scale hidden)%Q -> gmin (n_dtype hidden) <= gmax (n_dtype hidden) ->
  let val n q := (n_scale n * inject_Z (q - zp0 n))%Q in
  let code := (val (gn_out go) o * val act_out a / n_scale hidden + inject_Z (zp0 hidden))%Q in
  small_Q code ->
  (Qabs (inject_Z (hidden1 l o a) - clampQ (gmin (n_dtype hidden)) (gmax (n_dtype hidden)) code) <= 1)%Q.
Proof.
  intros input hidden state act_in act_out gi gf gc go sq l o a Hb Ps Hd val code Sm.
  unfold lstm_build in Hb. cbv zeta in Hb.
  repeat match type of Hb with rbind ?m _ = Ok _ => let D := fresh "D" in destruct m eqn:D; [cbn [rbind] in Hb|discriminate] end;
    repeat match goal with D : py_div _ _ = Ok _ |- _ => apply py_div_inv in D as (_ & D); rewrite D in Hb; clear D end.
  match type of Hb with Ok ?t = _ => assert (E : l = t) by congruence end. rewrite E. clear Hb E.
  unfold hidden1. cbn [l_hidden_dtype l_hidden_zp l_out_zp l_act_zp l_M5].
  match goal with |- context [to_i64 ?x] => assert (X : (x == code)%Q) end.
  { unfold code, val. rewrite inject_Z_mult. field. lra. }
  rewrite <- clamp_clip by exact Hd. apply clampQ_close; [exact Hd|].
  match goal with |- context [to_i64 ?x] => assert (Y : (Qabs (inject_Z (to_i64 x) - x) < 1)%Q) end.
  { apply to_i64_near. rewrite X. apply small_Q_i64, Sm. }
  rewrite X in Y at 2. apply Qlt_le_weak. exact Y.
Qed.

(** Loading divides by these scales; a file where one of them is zero is refused. *)
Theorem C51_divisors_nonzero : forall input hidden state act_in act_out gi gf gc go sq l,
  lstm_build input hidden state act_in act_out gi gf gc go sq = Ok l ->
  (~ n_scale hidden == 0)%Q /\ (~ n_scale state == 0)%Q /\
  forall g, In g [gi; gf; gc; go] -> (~ n_scale (gn_rec g) == 0)%Q /\ (~ n_scale (gn_radd g) == 0)%Q.
Proof.
  intros input hidden state act_in act_out gi gf gc go sq l Hb. unfold lstm_build in Hb. cbv zeta in Hb.
  repeat match type of Hb with rbind ?m _ = Ok _ => let D := fresh "D" in destruct m eqn:D; [cbn [rbind] in Hb|discriminate] end.
  assert (G : forall g G, build_gate input hidden g = Ok G -> (~ n_scale (gn_rec g) == 0)%Q /\ (~ n_scale (gn_radd g) == 0)%Q).
  { intros g G E. unfold build_gate in E.
    repeat match type of E with rbind ?m _ = Ok _ => let D := fresh "F" in destruct m eqn:D; [cbn [rbind] in E|discriminate] end.
    repeat match goal with F : py_div _ _ = Ok _ |- _ => apply py_div_inv in F as (F & _) end.
    split; [|assumption]. intros Z0. match goal with F : ~ (n_scale hidden * _ == 0)%Q |- _ => apply F end. rewrite Z0. ring. }
  repeat match goal with D : build_gate _ _ _ = Ok _ |- _ => apply G in D end.
  repeat match goal with F : py_div _ _ = Ok _ |- _ => apply py_div_inv in F as (F & _) end.
  split; [assumption|]. split; [assumption|]. intros g [<-|[<-|[<-|[<-|[]]]]]; assumption.
Qed.

(** ** Concrete network used by the examples: 1 feature, 1 cell, int8 everywhere, all activations
    the identity; parameters: state dtype of the activation output, zero points, kernel values. *)
Definition idf (x : Q) : Q := x.
Definition enode (s : Q) (z : Z) (d : gdtype) : node := mknode s (Some z) d [] None.
Definition tnode (s : Q) (v : Z) : node := mknode s (Some 0) int8 [[v]] None.
Definition lnode (f : Q -> Q) (d : gdtype) (iz oz : Z) : node := mknode (1#16) (Some iz) d [] (Some (json_plain d f (1#16) iz (1#16) oz)).
Definition egate (k : Z) (f : Q -> Q) : gate_nodes :=
  mkgn (tnode (1#16) k) (tnode (1#16) 0) (tnode (1#256) 0) (enode (1#16) 0 int8) (lnode f int8 0 0) (enode (1#16) 0 int8).
Definition example_lstm (k : Z) (czp hzp : Z) (dact : gdtype) (sq : bool) : res lstm :=
  lstm_build (enode (1#16) 0 int8) (enode (1#16) hzp int8) (enode (1#16) czp int8)
    (lnode idf dact czp 0) (enode (1#16) 0 dact)
    (egate k idf) (egate k (fun _ => 1%Q)) (egate k idf) (egate k idf) sq.

Example C24_example : exists l o rec, example_lstm 16 0 0 int8 true = Ok l /\
  lstm_infer l 3 [[[32]; [16]; [8]]; [[-64]; [20]; [0]]] = Ok (o, rec) /\
  o = OSeq [[[127]; [80]; [42]]; [[-128]; [127]; [0]]] /\
  lstm_infer l 3 [[[-64]; [20]; [0]]] = Ok (OSeq [[[-128]; [127]; [0]]], map (fun s => [nth 1 s dstep]) rec).
Proof. eexists; eexists; eexists. split; [reflexivity|]. split; [vm_compute; reflexivity|]. split; vm_compute; reflexivity. Qed.

(** C25, counterexample: the declared dtype of the cell state is not used.  With an int10 activation
    output the int8 cell state leaves int8. *)
Definition int10 : gdtype := {| gmin := -512; gmax := 511; grepr := chars_of "int10" |}.
Theorem C25_cell_dtype_refuted : exists l o step s rest,
  example_lstm 16 0 0 int10 true = Ok l /\
  lstm_infer l 1 [[[100]]] = Ok (o, [step]) /\ step = s :: rest /\ ~ all_in int8 (s_cell s).
Proof.
  eexists; eexists; eexists; eexists; eexists. split; [reflexivity|]. split; [vm_compute; reflexivity|].
  split; [reflexivity|]. intros H. specialize (H 511 (or_introl eq_refl)). vm_compute in H. destruct H as [_ H]; apply H; reflexivity.
Qed.

(** ** C52: initial states are code 0, not the code of 0.0 *)
(** With a zero cell zero point the first step starts from c = 0.0: the forget gate is irrelevant. *)
Theorem C52_first_step_forgets : forall l f f' i g, l_state_zp l = 0 -> cell1 l f 0 i g = cell1 l f' 0 i g.
Proof.
  intros l f f' i g H. unfold cell1. rewrite H. f_equal. unfold to_i64. f_equal.
  apply Qtrunc_comp. change (inject_Z (0 - 0)) with 0%Q. ring.
Qed.
(** Otherwise the network starts from a cell state of -zp*scale: all kernels and biases zero, input
    zero, forget gate 1.0, every other activation the identity (so the real hidden state stays 0.0),
    yet after the first step the cell state is not the code of 0.0. *)
Theorem C52_zero_point_refuted : exists l o s,
  example_lstm 0 20 0 int8 true = Ok l /\
  lstm_infer l 1 [[[0]]] = Ok (o, [[s]]) /\ s_cell s = [0] /\ l_state_zp l = 20.
Proof. eexists; eexists; eexists. split; [reflexivity|]. split; [vm_compute; reflexivity|]. split; reflexivity. Qed.
(** The hidden zero point is never subtracted before the recurrent product (line 294): shifting all
    hidden codes together with the hidden zero point should not change pre-activations, but does. *)
Theorem C52_hidden_zero_point_refuted : exists input hidden hidden' gn g g' n d b r r' h,
  n_scale hidden = n_scale hidden' /\ zp0 hidden = 0 /\ zp0 hidden' = 10 /\
  build_gate input hidden gn = Ok g /\ build_gate input hidden' gn = Ok g' /\
  recurrent_row n d g h b = Ok r /\ recurrent_row n d g' (map (Z.add 10) h) b = Ok r' /\ r <> r'.
Proof.
  exists (enode (1#16) 0 int8), (enode (1#16) 0 int8), (enode (1#16) 10 int8).
  exists (mkgn (tnode (1#16) 0) (tnode (1#16) 16) (tnode (1#256) 0) (enode (1#16) 0 int8) (lnode idf int8 0 0) (enode (1#16) 0 int8)).
  eexists; eexists; exists 1%nat, int8, [0], [5], [15], [5].
  repeat (split; [first [reflexivity | vm_compute; reflexivity]|]). discriminate.
Qed.
