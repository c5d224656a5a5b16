(** The binary64 LSTM layer (FloatLstmModel.v), one batch row at a time (for PropFloatLstmRun.v).  The lemmas are those of LstmProofs.v and
    PropLstm.v for the exact model. *)
From Verif Require Import Base BaseProofs DtypeModel QuantModel LutModel FcModel FcProofs FcLayer EngineModel EngineProofs LstmModel LstmProofs PropLstm
  FloatModel FloatProofs FloatQuant PropFloat FloatLstmModel.
From Coq Require Import Lqa.
Open Scope Z_scope.
Open Scope list_scope.

(** ** the loop *)
Fixpoint row_run_f (l : flstm) (h c : list Z) (xs : list (list Z)) : res (list step_rec) :=
  match xs with
  | [] => Ok []
  | x :: r => do s <- step_row_f l h c x; do ss <- row_run_f l (s_hidden s) (s_cell s) r; Ok (s :: ss)
  end.

Lemma step_batch_iff_F l h c x s : 
  step_batch_f l h c x = Ok s <->
  (length x <> 0%nat /\ fl_cells l <> 0%nat /\ length s = length x /\
   forall b, (b < length x)%nat -> step_row_f l (brow h b) (brow c b) (nth b x []) = Ok (nth b s dstep)).
Proof.
  unfold step_batch_f. destruct (length x =? 0)%nat eqn:E1; [apply Nat.eqb_eq in E1; split; [discriminate|lia]|apply Nat.eqb_neq in E1].
  destruct (fl_cells l =? 0)%nat eqn:E2; [apply Nat.eqb_eq in E2; split; [discriminate|lia]|apply Nat.eqb_neq in E2].
  cbn [orb]. rewrite mapM_inv, (Forall2_nth_iff _ _ _ dstep), combine_seq_length. split.
  - intros (L & H). repeat (split; [assumption|]). intros b Hb.
    specialize (H b _ (combine_seq_nth x 0 b [] Hb)). exact H.
  - intros (_ & _ & L & H). split; [exact L|]. intros i a Ha.
    assert (Hi : (i < length x)%nat).
    { rewrite <- (combine_seq_length x 0). apply nth_error_Some. congruence. }
    rewrite (combine_seq_nth x 0 i [] Hi) in Ha. injection Ha as <-. cbn [fst snd]. apply H, Hi.
Qed.

Lemma run_steps_iff_F l B : B <> 0%nat -> fl_cells l <> 0%nat -> forall xs h c ss,
  (forall x, In x xs -> length x = B) ->
  (run_steps_f l h c xs = Ok ss <->
   (length ss = length xs /\ (forall s, In s ss -> length s = B) /\
    forall b, (b < B)%nat -> row_run_f l (brow h b) (brow c b) (rowb [] b xs) = Ok (rowb dstep b ss))).
Proof.
  intros HB Hn. induction xs as [|x xs IH]; intros h c ss Hx.
  - cbn [run_steps_f]. split.
    + intros [= <-]. split; [reflexivity|]. split; [intros ? []|]. reflexivity.
    + intros (L & _). destruct ss; [reflexivity|discriminate].
  - assert (Lx : length x = B) by (apply Hx; now left).
    assert (Hx' : forall y, In y xs -> length y = B) by (intros; apply Hx; now right).
    cbn [run_steps_f]. split.
    + destruct (step_batch_f l h c x) as [s|] eqn:E; [|discriminate]. cbn [rbind].
      destruct (run_steps_f l (map s_hidden s) (map s_cell s) xs) as [ss'|] eqn:E2; [|discriminate]. cbn [rbind].
      intros H. assert (ss = s :: ss') by congruence. subst ss. clear H.
      apply step_batch_iff_F in E as (_ & _ & Ls & Hs). apply IH in E2 as (L2 & LB & H2); [|exact Hx'].
      split; [simpl; lia|]. split; [intros y [<- | Hy]; [lia|auto]|].
      intros b Hb. cbn [rowb map row_run_f]. rewrite Hs by lia. cbn [rbind].
      specialize (H2 b Hb). rewrite !(brow_map _ s b dstep) in H2 by lia. unfold rowb in H2. rewrite H2. reflexivity.
    + intros (L & LB & H). destruct ss as [|s ss']; [discriminate|]. 
      assert (Ls : length s = B) by (apply LB; now left).
      assert (R : forall b, (b < B)%nat -> step_row_f l (brow h b) (brow c b) (nth b x []) = Ok (nth b s dstep) /\
        row_run_f l (s_hidden (nth b s dstep)) (s_cell (nth b s dstep)) (rowb [] b xs) = Ok (rowb dstep b ss')).
      { intros b Hb. specialize (H b Hb). cbn [rowb map row_run_f] in H.
        destruct (step_row_f l (brow h b) (brow c b) (nth b x [])) as [s0|] eqn:E0; [|discriminate]. cbn [rbind] in H.
        destruct (row_run_f l (s_hidden s0) (s_cell s0) (map (fun x0 => nth b x0 []) xs)) as [ss0|] eqn:E1; [|discriminate].
        cbn [rbind] in H. assert (s0 = nth b s dstep) by congruence. assert (ss0 = map (fun x0 => nth b x0 dstep) ss') by congruence.
        subst s0 ss0. split; [reflexivity|exact E1]. }
      assert (E : step_batch_f l h c x = Ok s).
      { apply step_batch_iff_F. repeat (split; [lia|]). intros b Hb. apply R. lia. }
      rewrite E. cbn [rbind].
      assert (E2 : run_steps_f l (map s_hidden s) (map s_cell s) xs = Ok ss').
      { apply IH; [exact Hx'|]. split; [simpl in L; lia|]. split; [intros; apply LB; now right|].
        intros b Hb. rewrite !(brow_map _ s b dstep) by lia. apply R, Hb. }
      rewrite E2. reflexivity.
Qed.

Lemma row_run_length_F l xs : forall h c ss, row_run_f l h c xs = Ok ss -> length ss = length xs.
Proof.
  induction xs as [|x xs IH]; intros h c ss H; cbn [row_run_f] in H; [injection H as <-; reflexivity|].
  destruct (step_row_f l h c x) as [s|]; [|discriminate]. cbn [rbind] in H.
  destruct (row_run_f l (s_hidden s) (s_cell s) xs) as [ss'|] eqn:E; [|discriminate]. cbn [rbind] in H.
  injection H as <-. simpl. f_equal. eapply IH; exact E.
Qed.
(** causality of one row *)
Lemma row_run_firstn_F l T : forall xs h c ss, row_run_f l h c xs = Ok ss ->
  row_run_f l h c (firstn T xs) = Ok (firstn T ss).
Proof.
  induction T as [|T IH]; intros xs h c ss H; [reflexivity|].
  destruct xs as [|x xs]; cbn [row_run_f firstn] in *; [injection H as <-; reflexivity|].
  destruct (step_row_f l h c x) as [s|]; [|discriminate]. cbn [rbind] in *.
  destruct (row_run_f l (s_hidden s) (s_cell s) xs) as [ss'|] eqn:E; [|discriminate]. cbn [rbind] in H.
  injection H as <-. cbn [firstn]. rewrite (IH _ _ _ _ E). reflexivity.
Qed.
Lemma run_steps_firstn_F l T : forall xs h c ss, run_steps_f l h c xs = Ok ss ->
  run_steps_f l h c (firstn T xs) = Ok (firstn T ss).
Proof.
  induction T as [|T IH]; intros xs h c ss H; [reflexivity|].
  destruct xs as [|x xs]; cbn [run_steps_f firstn] in *; [injection H as <-; reflexivity|].
  destruct (step_batch_f l h c x) as [s|]; [|discriminate]. cbn [rbind] in *.
  destruct (run_steps_f l (map s_hidden s) (map s_cell s) xs) as [ss'|] eqn:E; [|discriminate]. cbn [rbind] in H.
  injection H as <-. cbn [firstn]. rewrite (IH _ _ _ _ E). reflexivity.
Qed.
Lemma run_steps_length_F l : forall xs h c ss, run_steps_f l h c xs = Ok ss -> length ss = length xs.
Proof.
  induction xs as [|x xs IH]; intros h c ss H; cbn [run_steps_f] in H; [injection H as <-; reflexivity|].
  destruct (step_batch_f l h c x) as [s|]; [|discriminate]. cbn [rbind] in H.
  destruct (run_steps_f l (map s_hidden s) (map s_cell s) xs) as [ss'|] eqn:E; [|discriminate]. cbn [rbind] in H.
  injection H as <-. simpl. f_equal. eapply IH; exact E.
Qed.
Lemma run_steps_batch_F l x xs h c s ss : run_steps_f l h c (x :: xs) = Ok (s :: ss) ->
  length x <> 0%nat /\ fl_cells l <> 0%nat.
Proof.
  cbn [run_steps_f]. destruct (step_batch_f l h c x) as [s0|] eqn:E; [|discriminate]. intros _.
  apply step_batch_iff_F in E. tauto.
Qed.

(** ** ranges *)
(** no multiplier of the second product is infinite or NaN, and the zero point added to it is an int64 *)
Definition fin_gate (g : fgate) : Prop := (exists m, fg_M2 g = Fin m) /\ Z.abs (fg_rzp g) <= 2 ^ 63.
Lemma i64_fin z : exists q, f_of_Z (i64 z) = Fin q.
Proof.
  exists (fl64 (inject_Z (i64 z))). unfold f_of_Z. apply rnd_fin.
  eapply Qle_trans; [apply (abs_inject (i64 z) 63); [lia|]|apply pow2_mono; lia].
  unfold i64. pose proof (wrap_s_range 64 z ltac:(lia)) as W. change (64 - 1) with 63 in W. lia.
Qed.
Lemma zp_fin z : Z.abs z <= 2 ^ 63 -> exists q, f_of_Z z = Fin q.
Proof.
  intros H. exists (fl64 (inject_Z z)). unfold f_of_Z. apply rnd_fin.
  eapply Qle_trans; [apply (abs_inject z 63); [lia|exact H]|apply pow2_mono; lia].
Qed.
Lemma fclip_in d a : int64_dtype d -> a <> NaN -> gmin d <= fcast_i64 (fclip (gmin d) (gmax d) a) <= gmax d.
Proof.
  intros (A & B & C) N.
  assert (I : forall z, gmin d <= z <= gmax d -> fcast_i64 (Fin (inject_Z z)) = z).
  { intros z Hz. cbn [fcast_i64]. unfold to_i64, cast_i64. rewrite Qtrunc_inject.
    replace ((- 2 ^ 63 <=? z) && (z <=? 2 ^ 63 - 1)) with true; [reflexivity|].
    symmetry. apply andb_true_iff. split; apply Z.leb_le; lia. }
  destruct a as [x|[|]|]; [| | |congruence].
  - replace (fclip (gmin d) (gmax d) (Fin x)) with (Fin (clipQ (gmin d) (gmax d) x)); [apply to_i64_clip; assumption|].
    unfold fclip, clipQ. destruct (Qlt_le_dec x (inject_Z (gmin d))); [|destruct (Qlt_le_dec (inject_Z (gmax d)) x); reflexivity].
    destruct (Z.ltb_spec (gmax d) (gmin d)); [lia|reflexivity].
  - cbn [fclip]. rewrite Z.min_l by exact B. rewrite I; lia.
  - cbn [fclip]. rewrite I; lia.
Qed.
Lemma recurrent_row_in_F n d g h b r : int64_dtype d -> fin_gate g -> recurrent_row_f n d g h b = Ok r -> all_in d r /\ length r = n.
Proof.
  intros D ((m & M) & RZ) H. unfold recurrent_row_f in H. destruct (vecmat n h (fg_rec g)); [|discriminate].
  cbn [rbind] in H. match type of H with Ok ?t = _ => assert (E : r = t) by congruence end. subst r. clear H.
  split; [|now rewrite map_length, seq_length].
  intros q Hq. apply in_map_iff in Hq as (j & <- & _). apply fclip_in; [exact D|].
  match goal with |- context [i64 ?z] => destruct (i64_fin z) as (q1 & E1) end. rewrite E1, M.
  destruct (zp_fin _ RZ) as (q2 & E2). rewrite E2. cbn [fmul]. unfold rnd.
  destruct (Qle_bool (pow2 1024) (Qabs (fl64 (q1 * m)))); cbn [fadd]; [discriminate|].
  unfold rnd. destruct (Qle_bool (pow2 1024) _); discriminate.
Qed.
Definition fin_lstm (l : flstm) : Prop := fin_gate (fl_in l) /\ fin_gate (fl_forget l) /\ fin_gate (fl_cell l) /\ fin_gate (fl_out l).

Lemma step_row_in_F l h c x s : fin_lstm l -> int64_dtype (fl_rec_dtype l) -> gmin (fl_state_dtype l) <= gmax (fl_state_dtype l) ->
  gmin (fl_hidden_dtype l) <= gmax (fl_hidden_dtype l) -> step_row_f l h c x = Ok s ->
  (length (s_pre s) = 4%nat /\ forall p, In p (s_pre s) -> all_in (fl_rec_dtype l) p /\ length p = fl_cells l) /\
  (all_in (fl_state_dtype l) (s_cell s) /\ length (s_cell s) = fl_cells l) /\
  (all_in (fl_hidden_dtype l) (s_hidden s) /\ length (s_hidden s) = fl_cells l).
Proof.
  intros (F1 & F2 & F3 & F4) Hr Hs Hh H. unfold step_row_f in H. cbv zeta in H.
  destruct (bias_add_row_f (fl_cells l) (fl_in l) x) as [bi|]; [|discriminate]. cbn [rbind] in H.
  destruct (bias_add_row_f (fl_cells l) (fl_forget l) x) as [bf|]; [|discriminate]. cbn [rbind] in H.
  destruct (bias_add_row_f (fl_cells l) (fl_cell l) x) as [bc|]; [|discriminate]. cbn [rbind] in H.
  destruct (bias_add_row_f (fl_cells l) (fl_out l) x) as [bo|]; [|discriminate]. cbn [rbind] in H.
  destruct (recurrent_row_f (fl_cells l) (fl_rec_dtype l) (fl_in l) h bi) as [ri|] eqn:Ri; [|discriminate]. cbn [rbind] in H.
  destruct (recurrent_row_f (fl_cells l) (fl_rec_dtype l) (fl_forget l) h bf) as [rf|] eqn:Rf; [|discriminate]. cbn [rbind] in H.
  destruct (recurrent_row_f (fl_cells l) (fl_rec_dtype l) (fl_cell l) h bc) as [rc|] eqn:Rc; [|discriminate]. cbn [rbind] in H.
  destruct (recurrent_row_f (fl_cells l) (fl_rec_dtype l) (fl_out l) h bo) as [ro|] eqn:Ro; [|discriminate]. cbn [rbind] in H.
  destruct (lut_row (fl_in_lut l) ri) as [ai|]; [|discriminate]. cbn [rbind] in H.
  destruct (lut_row (fl_forget_lut l) rf) as [af|]; [|discriminate]. cbn [rbind] in H.
  destruct (lut_row (fl_cell_lut l) rc) as [ac|]; [|discriminate]. cbn [rbind] in H.
  destruct (lut_row (fl_out_lut l) ro) as [ao|]; [|discriminate]. cbn [rbind] in H.
  match type of H with rbind ?m _ = _ => destruct m as [aa|]; [|discriminate] end. cbn [rbind] in H.
  match type of H with Ok ?t = _ => assert (E : s = t) by congruence end. subst s. clear H.
  cbn [s_pre s_cell s_hidden]. split; [split; [reflexivity|]|split; split].
  - intros p [<- |[<- |[<- |[<- |[]]]]]; (eapply recurrent_row_in_F; [exact Hr| |eassumption]; assumption).
  - intros q Hq. apply in_map_iff in Hq as (j & <- & _). apply clipZ_range, Hs.
  - now rewrite map_length, seq_length.
  - intros q Hq. apply in_map_iff in Hq as (j & <- & _). apply clipZ_range, Hh.
  - now rewrite map_length, seq_length.
Qed.

Lemma run_steps_records_F l : forall xs h c ss, run_steps_f l h c xs = Ok ss ->
  forall step s, In step ss -> In s step -> exists h' c' x, step_row_f l h' c' x = Ok s.
Proof.
  induction xs as [|x xs IH]; intros h c ss H step s Hin Hs; cbn [run_steps_f] in H; [injection H as <-; destruct Hin|].
  destruct (step_batch_f l h c x) as [s0|] eqn:E; [|discriminate]. cbn [rbind] in H.
  destruct (run_steps_f l (map s_hidden s0) (map s_cell s0) xs) as [ss'|] eqn:E2; [|discriminate]. cbn [rbind] in H.
  injection H as <-. destruct Hin as [<- | Hin]; [|eapply IH; eassumption].
  apply step_batch_iff_F in E as (_ & _ & L & H). destruct (In_nth _ _ dstep Hs) as (b & Hb & <-).
  rewrite L in Hb. eauto.
Qed.

Definition gate_ok_F (n f : nat) (g : fgate) : Prop := length (fg_kernel g) = f /\ length (fg_rec g) = n.

Lemma step_row_ok_F l f h c x : fin_lstm l -> int64_dtype (fl_rec_dtype l) -> gmin (fl_state_dtype l) <= gmax (fl_state_dtype l) ->
  gate_ok_F (fl_cells l) f (fl_in l) -> gate_ok_F (fl_cells l) f (fl_forget l) ->
  gate_ok_F (fl_cells l) f (fl_cell l) -> gate_ok_F (fl_cells l) f (fl_out l) ->
  covers (fl_in_lut l) (fl_rec_dtype l) -> covers (fl_forget_lut l) (fl_rec_dtype l) ->
  covers (fl_cell_lut l) (fl_rec_dtype l) -> covers (fl_out_lut l) (fl_rec_dtype l) ->
  covers (fl_state_lut l) (fl_state_dtype l) ->
  length h = fl_cells l -> length x = f ->
  exists s, step_row_f l h c x = Ok s /\ length (s_hidden s) = fl_cells l.
Proof.
  intros (F1 & F2 & F3 & F4) Hr Hs (K1 & R1) (K2 & R2) (K3 & R3) (K4 & R4) C1 C2 C3 C4 C5 Lh Lx.
  unfold step_row_f. cbv zeta.
  assert (BA : forall g, length (fg_kernel g) = f -> exists b, bias_add_row_f (fl_cells l) g x = Ok b).
  { intros g Hg. unfold bias_add_row_f. destruct (vecmat_ok (fl_cells l) x (fg_kernel g)) as (m & ->); [congruence|]. eexists; reflexivity. }
  assert (RA : forall g b, fin_gate g -> length (fg_rec g) = fl_cells l -> exists r, recurrent_row_f (fl_cells l) (fl_rec_dtype l) g h b = Ok r /\ all_in (fl_rec_dtype l) r).
  { intros g b Fg Hg. destruct (vecmat_ok (fl_cells l) h (fg_rec g)) as (m & Hm); [congruence|].
    assert (E : exists r, recurrent_row_f (fl_cells l) (fl_rec_dtype l) g h b = Ok r) by (unfold recurrent_row_f; rewrite Hm; eexists; reflexivity).
    destruct E as (r & E). exists r. split; [exact E|]. (eapply recurrent_row_in_F; [exact Hr| |eassumption]; assumption). }
  destruct (BA _ K1) as (b1 & ->), (BA _ K2) as (b2 & ->), (BA _ K3) as (b3 & ->), (BA _ K4) as (b4 & ->). cbn [rbind].
  destruct (RA _ b1 F1 R1) as (r1 & -> & I1), (RA _ b2 F2 R2) as (r2 & -> & I2), (RA _ b3 F3 R3) as (r3 & -> & I3), (RA _ b4 F4 R4) as (r4 & -> & I4).
  cbn [rbind].
  destruct (lut_row_ok (fl_in_lut l) r1) as (a1 & ->); [intros; apply C1; auto|].
  destruct (lut_row_ok (fl_forget_lut l) r2) as (a2 & ->); [intros; apply C2; auto|].
  destruct (lut_row_ok (fl_cell_lut l) r3) as (a3 & ->); [intros; apply C3; auto|].
  destruct (lut_row_ok (fl_out_lut l) r4) as (a4 & ->); [intros; apply C4; auto|]. cbn [rbind].
  match goal with |- context [lut_row (fl_state_lut l) ?c'] => destruct (lut_row_ok (fl_state_lut l) c') as (a5 & ->) end.
  { intros q Hq. apply C5. apply in_map_iff in Hq as (j & <- & _). apply clipZ_range, Hs. }
  cbn [rbind]. eexists; split; [reflexivity|]. cbn [s_hidden]. now rewrite map_length, seq_length.
Qed.


(** ** infer *)
Definition with_seq_F (l : flstm) (s : bool) : flstm :=
  mkflstm (fl_in l) (fl_forget l) (fl_cell l) (fl_out l) (fl_M3 l) (fl_M4 l) (fl_M5 l)
    (fl_in_lut l) (fl_forget_lut l) (fl_cell_lut l) (fl_out_lut l) (fl_state_lut l)
    (fl_input_zp l) (fl_hidden_zp l) (fl_in_zp l) (fl_forget_zp l) (fl_cellg_zp l) (fl_out_zp l)
    (fl_state_zp l) (fl_act_zp l) (fl_rec_dtype l) (fl_state_dtype l) (fl_hidden_dtype l) (fl_cells l) s.
Lemma infer_inv_F l T ss o rec : lstm_infer_f l T ss = Ok (o, rec) ->
  run_steps_f l [repeat 0 (fl_cells l)] [repeat 0 (fl_cells l)] (timesteps T (fl_input_zp l) ss) = Ok rec /\ rec <> [] /\
  o = (if fl_seq l then OSeq (map (fun b => map (fun step => nth b step []) (map (map s_hidden) rec)) (seq 0 (length ss)))
       else OLast (last (map (map s_hidden) rec) [])).
Proof.
  unfold lstm_infer_f. destruct (run_steps_f _ _ _ _) as [r|]; [|discriminate]. cbn [rbind].
  destruct r as [|r0 r]; cbn [map]; [discriminate|]. intros H.
  match type of H with Ok (?a, ?b) = _ => assert (o = a /\ rec = b) as [-> ->] by (split; congruence) end.
  split; [reflexivity|]. split; [discriminate|]. reflexivity.
Qed.
Lemma infer_intro_F l T ss rec :
  run_steps_f l [repeat 0 (fl_cells l)] [repeat 0 (fl_cells l)] (timesteps T (fl_input_zp l) ss) = Ok rec -> rec <> [] ->
  lstm_infer_f l T ss = Ok (if fl_seq l then OSeq (map (fun b => map (fun step => nth b step []) (map (map s_hidden) rec)) (seq 0 (length ss)))
       else OLast (last (map (map s_hidden) rec) []), rec).
Proof.
  intros H N. unfold lstm_infer_f. rewrite H. cbn [rbind]. destruct rec as [|r0 r]; [congruence|]. reflexivity.
Qed.
Lemma infer_sizes_F l T ss o rec : lstm_infer_f l T ss = Ok (o, rec) -> (T <> 0 /\ length ss <> 0 /\ fl_cells l <> 0)%nat.
Proof.
  intros H. apply infer_inv_F in H as (R & N & _).
  pose proof (run_steps_length_F _ _ _ _ _ R) as L. rewrite timesteps_length in L.
  destruct rec as [|r0 r]; [congruence|]. destruct (timesteps T (fl_input_zp l) ss) as [|x xs] eqn:E; [discriminate|].
  apply run_steps_batch_F in R as (Lx & Ln). rewrite (timesteps_rows T (fl_input_zp l) ss x) in Lx by (rewrite E; now left).
  simpl in L. lia.
Qed.
Lemma infer_rows_F l T ss rec : (length ss <> 0)%nat -> (fl_cells l <> 0)%nat ->
  let z := repeat 0 (fl_cells l) in
  run_steps_f l [z] [z] (timesteps T (fl_input_zp l) ss) = Ok rec <->
  (length rec = T /\ (forall s, In s rec -> length s = length ss) /\
   forall b s, nth_error ss b = Some s ->
     row_run_f l z z (map (fun t => map (fun v => i64 (v - fl_input_zp l)) (nth t s [])) (seq 0 T)) = Ok (rowb dstep b rec)).
Proof.
  intros Hs Hn z. rewrite (run_steps_iff_F l (length ss) Hs Hn).
  2:{ intros x Hx. eapply timesteps_rows; exact Hx. }
  rewrite timesteps_length. split; intros (A & B & C); split; try exact A; split; try exact B.
  - intros b s E. rewrite <- (timesteps_row T (fl_input_zp l) ss b s E). apply C. apply nth_error_Some. congruence.
  - intros b Hb. destruct (nth_error ss b) as [s|] eqn:E; [|apply nth_error_None in E; lia].
    rewrite !brow_single, (timesteps_row T (fl_input_zp l) ss b s E). apply C, E.
Qed.

