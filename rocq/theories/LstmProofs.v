From Verif Require Import Base BaseProofs DtypeModel QuantModel LutModel FcModel FcLayer EngineModel EngineProofs LstmModel.
From Coq Require Import Lqa.
Open Scope Z_scope.
Open Scope list_scope.

(** ** the loop, one batch row at a time *)
Fixpoint row_run (l : lstm) (h c : list Z) (xs : list (list Z)) : res (list step_rec) :=
  match xs with
  | [] => Ok []
  | x :: r => do s <- step_row l h c x; do ss <- row_run l (s_hidden s) (s_cell s) r; Ok (s :: ss)
  end.

Definition dstep : step_rec := mkstep [] [] [] [] [].
Definition rowb {A} (d : A) (b : nat) (xs : list (list A)) : list A := map (fun x => nth b x d) xs.

Lemma combine_seq_nth {A} (x : list A) k b d : (b < length x)%nat ->
  nth_error (combine (seq k (length x)) x) b = Some ((k + b)%nat, nth b x d).
Proof.
  revert k b; induction x as [|a x IH]; intros k [|b] H; simpl in H; try lia; simpl.
  - f_equal. f_equal. lia.
  - rewrite IH by lia. f_equal. f_equal. lia.
Qed.
Lemma combine_seq_length {A} (x : list A) k : length (combine (seq k (length x)) x) = length x.
Proof. rewrite combine_length, seq_length. lia. Qed.

Lemma Forall2_nth_iff {A B} (P : A -> B -> Prop) (l : list A) (l' : list B) (db : B) :
  Forall2 P l l' <-> (length l' = length l /\ forall i a, nth_error l i = Some a -> P a (nth i l' db)).
Proof.
  split.
  - induction 1 as [|x y l l' H _ (L & IH)]; [split; [reflexivity|intros [|i] a E; discriminate]|].
    split; [simpl; lia|]. intros [|i] a E; simpl in *; [congruence|auto].
  - revert l'; induction l as [|x l IH]; intros [|y l'] (L & H); simpl in L; try lia; constructor.
    + exact (H 0%nat x eq_refl).
    + apply IH. split; [lia|]. intros i a E. exact (H (S i) a E).
Qed.

Lemma step_batch_iff l h c x s : 
  step_batch l h c x = Ok s <->
  (length x <> 0%nat /\ l_cells l <> 0%nat /\ length s = length x /\
   forall b, (b < length x)%nat -> step_row l (brow h b) (brow c b) (nth b x []) = Ok (nth b s dstep)).
Proof.
  unfold step_batch. destruct (length x =? 0)%nat eqn:E1; [apply Nat.eqb_eq in E1; split; [discriminate|lia]|apply Nat.eqb_neq in E1].
  destruct (l_cells l =? 0)%nat eqn:E2; [apply Nat.eqb_eq in E2; split; [discriminate|lia]|apply Nat.eqb_neq in E2].
  cbn [orb]. rewrite mapM_inv, (Forall2_nth_iff _ _ _ dstep), combine_seq_length. split.
  - intros (L & H). repeat (split; [assumption|]). intros b Hb.
    specialize (H b _ (combine_seq_nth x 0 b [] Hb)). exact H.
  - intros (_ & _ & L & H). split; [exact L|]. intros i a Ha.
    assert (Hi : (i < length x)%nat).
    { rewrite <- (combine_seq_length x 0). apply nth_error_Some. congruence. }
    rewrite (combine_seq_nth x 0 i [] Hi) in Ha. injection Ha as <-. cbn [fst snd]. apply H, Hi.
Qed.

Lemma brow_map {A} (f : A -> list Z) (s : list A) b d : (b < length s)%nat -> brow (map f s) b = f (nth b s d).
Proof.
  intros H. unfold brow. destruct s as [|a [|a2 s]]; simpl in H; [lia| |].
  - destruct b; [reflexivity|lia].
  - cbn [map]. rewrite <- (map_nth f (a :: a2 :: s) d b). cbn [map]. apply nth_indep. simpl. rewrite map_length. lia.
Qed.

Lemma run_steps_iff l B : B <> 0%nat -> l_cells l <> 0%nat -> forall xs h c ss,
  (forall x, In x xs -> length x = B) ->
  (run_steps l h c xs = Ok ss <->
   (length ss = length xs /\ (forall s, In s ss -> length s = B) /\
    forall b, (b < B)%nat -> row_run l (brow h b) (brow c b) (rowb [] b xs) = Ok (rowb dstep b ss))).
Proof.
  intros HB Hn. induction xs as [|x xs IH]; intros h c ss Hx.
  - cbn [run_steps]. split.
    + intros [= <-]. split; [reflexivity|]. split; [intros ? []|]. reflexivity.
    + intros (L & _). destruct ss; [reflexivity|discriminate].
  - assert (Lx : length x = B) by (apply Hx; now left).
    assert (Hx' : forall y, In y xs -> length y = B) by (intros; apply Hx; now right).
    cbn [run_steps]. split.
    + destruct (step_batch l h c x) as [s|] eqn:E; [|discriminate]. cbn [rbind].
      destruct (run_steps l (map s_hidden s) (map s_cell s) xs) as [ss'|] eqn:E2; [|discriminate]. cbn [rbind].
      intros H. assert (ss = s :: ss') by congruence. subst ss. clear H.
      apply step_batch_iff in E as (_ & _ & Ls & Hs). apply IH in E2 as (L2 & LB & H2); [|exact Hx'].
      split; [simpl; lia|]. split; [intros y [<- | Hy]; [lia|auto]|].
      intros b Hb. cbn [rowb map row_run]. rewrite Hs by lia. cbn [rbind].
      specialize (H2 b Hb). rewrite !(brow_map _ s b dstep) in H2 by lia. unfold rowb in H2. rewrite H2. reflexivity.
    + intros (L & LB & H). destruct ss as [|s ss']; [discriminate|]. 
      assert (Ls : length s = B) by (apply LB; now left).
      assert (R : forall b, (b < B)%nat -> step_row l (brow h b) (brow c b) (nth b x []) = Ok (nth b s dstep) /\
        row_run l (s_hidden (nth b s dstep)) (s_cell (nth b s dstep)) (rowb [] b xs) = Ok (rowb dstep b ss')).
      { intros b Hb. specialize (H b Hb). cbn [rowb map row_run] in H.
        destruct (step_row l (brow h b) (brow c b) (nth b x [])) as [s0|] eqn:E0; [|discriminate]. cbn [rbind] in H.
        destruct (row_run l (s_hidden s0) (s_cell s0) (map (fun x0 => nth b x0 []) xs)) as [ss0|] eqn:E1; [|discriminate].
        cbn [rbind] in H. assert (s0 = nth b s dstep) by congruence. assert (ss0 = map (fun x0 => nth b x0 dstep) ss') by congruence.
        subst s0 ss0. split; [reflexivity|exact E1]. }
      assert (E : step_batch l h c x = Ok s).
      { apply step_batch_iff. repeat (split; [lia|]). intros b Hb. apply R. lia. }
      rewrite E. cbn [rbind].
      assert (E2 : run_steps l (map s_hidden s) (map s_cell s) xs = Ok ss').
      { apply IH; [exact Hx'|]. split; [simpl in L; lia|]. split; [intros; apply LB; now right|].
        intros b Hb. rewrite !(brow_map _ s b dstep) by lia. apply R, Hb. }
      rewrite E2. reflexivity.
Qed.

Lemma row_run_length l xs : forall h c ss, row_run l h c xs = Ok ss -> length ss = length xs.
Proof.
  induction xs as [|x xs IH]; intros h c ss H; cbn [row_run] in H; [injection H as <-; reflexivity|].
  destruct (step_row l h c x) as [s|]; [|discriminate]. cbn [rbind] in H.
  destruct (row_run l (s_hidden s) (s_cell s) xs) as [ss'|] eqn:E; [|discriminate]. cbn [rbind] in H.
  injection H as <-. simpl. f_equal. eapply IH; exact E.
Qed.
(** causality of one row *)
Lemma row_run_firstn l T : forall xs h c ss, row_run l h c xs = Ok ss ->
  row_run l h c (firstn T xs) = Ok (firstn T ss).
Proof.
  induction T as [|T IH]; intros xs h c ss H; [reflexivity|].
  destruct xs as [|x xs]; cbn [row_run firstn] in *; [injection H as <-; reflexivity|].
  destruct (step_row l h c x) as [s|]; [|discriminate]. cbn [rbind] in *.
  destruct (row_run l (s_hidden s) (s_cell s) xs) as [ss'|] eqn:E; [|discriminate]. cbn [rbind] in H.
  injection H as <-. cbn [firstn]. rewrite (IH _ _ _ _ E). reflexivity.
Qed.
Lemma run_steps_firstn l T : forall xs h c ss, run_steps l h c xs = Ok ss ->
  run_steps l h c (firstn T xs) = Ok (firstn T ss).
Proof.
  induction T as [|T IH]; intros xs h c ss H; [reflexivity|].
  destruct xs as [|x xs]; cbn [run_steps firstn] in *; [injection H as <-; reflexivity|].
  destruct (step_batch l h c x) as [s|]; [|discriminate]. cbn [rbind] in *.
  destruct (run_steps l (map s_hidden s) (map s_cell s) xs) as [ss'|] eqn:E; [|discriminate]. cbn [rbind] in H.
  injection H as <-. cbn [firstn]. rewrite (IH _ _ _ _ E). reflexivity.
Qed.
Lemma run_steps_length l : forall xs h c ss, run_steps l h c xs = Ok ss -> length ss = length xs.
Proof.
  induction xs as [|x xs IH]; intros h c ss H; cbn [run_steps] in H; [injection H as <-; reflexivity|].
  destruct (step_batch l h c x) as [s|]; [|discriminate]. cbn [rbind] in H.
  destruct (run_steps l (map s_hidden s) (map s_cell s) xs) as [ss'|] eqn:E; [|discriminate]. cbn [rbind] in H.
  injection H as <-. simpl. f_equal. eapply IH; exact E.
Qed.
Lemma run_steps_batch l x xs h c s ss : run_steps l h c (x :: xs) = Ok (s :: ss) ->
  length x <> 0%nat /\ l_cells l <> 0%nat.
Proof.
  cbn [run_steps]. destruct (step_batch l h c x) as [s0|] eqn:E; [|discriminate]. intros _.
  apply step_batch_iff in E. tauto.
Qed.

(** ** timesteps *)
Lemma timesteps_length T zp s : length (timesteps T zp s) = T.
Proof. unfold timesteps. now rewrite map_length, seq_length. Qed.
Lemma timesteps_rows T zp s x : In x (timesteps T zp s) -> length x = length s.
Proof. unfold timesteps. intros H. apply in_map_iff in H as (t & <- & _). apply map_length. Qed.
Lemma timesteps_row T zp samples b s : nth_error samples b = Some s ->
  rowb [] b (timesteps T zp samples) = map (fun t => map (fun v => i64 (v - zp)) (nth t s [])) (seq 0 T).
Proof.
  intros H. unfold rowb, timesteps. rewrite map_map. apply map_ext. intros t.
  erewrite nth_error_nth; [reflexivity|]. rewrite nth_error_map, H. reflexivity.
Qed.
Lemma timesteps_firstn T T' zp s : (T' <= T)%nat -> firstn T' (timesteps T zp s) = timesteps T' zp s.
Proof.
  intros H. unfold timesteps. rewrite firstn_map. f_equal.
  replace T with (T' + (T - T'))%nat by lia. rewrite seq_app, firstn_app, seq_length, Nat.sub_diag.
  cbn [firstn]. rewrite app_nil_r. apply firstn_all2. rewrite seq_length. lia.
Qed.
Lemma timesteps_agree T zp ss ss' :
  Forall2 (fun s s' => forall t, (t < T)%nat -> nth t s [] = nth t s' []) ss ss' ->
  timesteps T zp ss = timesteps T zp ss'.
Proof.
  intros H. unfold timesteps. apply map_ext_in. intros t Ht. apply in_seq in Ht.
  induction H as [|a b ss ss' E _ IH]; [reflexivity|]. cbn [map]. rewrite IH. now rewrite E by lia.
Qed.

(** ** ranges *)
Lemma to_i64_clip lo hi x : - 2 ^ 63 <= lo -> lo <= hi -> hi <= 2 ^ 63 - 1 -> lo <= to_i64 (clipQ lo hi x) <= hi.
Proof.
  intros A B C. assert (BQ : (inject_Z lo <= inject_Z hi)%Q) by (apply (proj1 (Zle_inj _ _)); exact B).
  assert (R : lo <= Qtrunc (clipQ lo hi x) <= hi).
  { assert (Y : (inject_Z lo <= clipQ lo hi x <= inject_Z hi)%Q).
    { unfold clipQ. destruct (Qlt_le_dec x (inject_Z lo)); [lra|]. destruct (Qlt_le_dec (inject_Z hi) x); lra. }
    set (y := clipQ lo hi x) in *. unfold Qtrunc. destruct Y as [Y1 Y2].
    destruct (Qle_bool 0 y).
    - split; [rewrite <- (Qfloor_inject lo)|rewrite <- (Qfloor_inject hi)]; apply Qfloor_resp_le; assumption.
    - split; [rewrite <- (Qceiling_Z lo)|rewrite <- (Qceiling_Z hi)]; apply Qceiling_resp_le; assumption. }
  unfold to_i64, cast_i64.
  replace ((- 2 ^ 63 <=? Qtrunc (clipQ lo hi x)) && (Qtrunc (clipQ lo hi x) <=? 2 ^ 63 - 1)) with true; [exact R|].
  symmetry. apply andb_true_iff. split; apply Z.leb_le; lia.
Qed.

Definition all_in (d : gdtype) (v : list Z) : Prop := forall q, In q v -> gmin d <= q <= gmax d.
Definition int64_dtype (d : gdtype) : Prop := - 2 ^ 63 <= gmin d /\ gmin d <= gmax d /\ gmax d <= 2 ^ 63 - 1.

Lemma recurrent_row_in n d g h b r : int64_dtype d -> recurrent_row n d g h b = Ok r -> all_in d r /\ length r = n.
Proof.
  intros (A & B & C) H. unfold recurrent_row in H. destruct (vecmat n h (g_rec g)); [|discriminate].
  cbn [rbind] in H. injection H as <-. split; [|now rewrite map_length, seq_length].
  intros q Hq. apply in_map_iff in Hq as (j & <- & _). apply to_i64_clip; assumption.
Qed.

Lemma step_row_in l h c x s : int64_dtype (l_rec_dtype l) -> gmin (l_state_dtype l) <= gmax (l_state_dtype l) ->
  gmin (l_hidden_dtype l) <= gmax (l_hidden_dtype l) -> step_row l h c x = Ok s ->
  (length (s_pre s) = 4%nat /\ forall p, In p (s_pre s) -> all_in (l_rec_dtype l) p /\ length p = l_cells l) /\
  (all_in (l_state_dtype l) (s_cell s) /\ length (s_cell s) = l_cells l) /\
  (all_in (l_hidden_dtype l) (s_hidden s) /\ length (s_hidden s) = l_cells l).
Proof.
  intros Hr Hs Hh H. unfold step_row in H. cbv zeta in H.
  destruct (bias_add_row (l_cells l) (l_in l) x) as [bi|]; [|discriminate]. cbn [rbind] in H.
  destruct (bias_add_row (l_cells l) (l_forget l) x) as [bf|]; [|discriminate]. cbn [rbind] in H.
  destruct (bias_add_row (l_cells l) (l_cell l) x) as [bc|]; [|discriminate]. cbn [rbind] in H.
  destruct (bias_add_row (l_cells l) (l_out l) x) as [bo|]; [|discriminate]. cbn [rbind] in H.
  destruct (recurrent_row (l_cells l) (l_rec_dtype l) (l_in l) h bi) as [ri|] eqn:Ri; [|discriminate]. cbn [rbind] in H.
  destruct (recurrent_row (l_cells l) (l_rec_dtype l) (l_forget l) h bf) as [rf|] eqn:Rf; [|discriminate]. cbn [rbind] in H.
  destruct (recurrent_row (l_cells l) (l_rec_dtype l) (l_cell l) h bc) as [rc|] eqn:Rc; [|discriminate]. cbn [rbind] in H.
  destruct (recurrent_row (l_cells l) (l_rec_dtype l) (l_out l) h bo) as [ro|] eqn:Ro; [|discriminate]. cbn [rbind] in H.
  destruct (lut_row (l_in_lut l) ri) as [ai|]; [|discriminate]. cbn [rbind] in H.
  destruct (lut_row (l_forget_lut l) rf) as [af|]; [|discriminate]. cbn [rbind] in H.
  destruct (lut_row (l_cell_lut l) rc) as [ac|]; [|discriminate]. cbn [rbind] in H.
  destruct (lut_row (l_out_lut l) ro) as [ao|]; [|discriminate]. cbn [rbind] in H.
  match type of H with rbind ?m _ = _ => destruct m as [aa|]; [|discriminate] end. cbn [rbind] in H.
  match type of H with Ok ?t = _ => assert (E : s = t) by congruence end. subst s. clear H.
  cbn [s_pre s_cell s_hidden]. split; [split; [reflexivity|]|split; split].
  - intros p [<- |[<- |[<- |[<- |[]]]]]; eapply recurrent_row_in; eassumption.
  - intros q Hq. apply in_map_iff in Hq as (j & <- & _). apply clipZ_range, Hs.
  - now rewrite map_length, seq_length.
  - intros q Hq. apply in_map_iff in Hq as (j & <- & _). apply clipZ_range, Hh.
  - now rewrite map_length, seq_length.
Qed.

Lemma run_steps_records l : forall xs h c ss, run_steps l h c xs = Ok ss ->
  forall step s, In step ss -> In s step -> exists h' c' x, step_row l h' c' x = Ok s.
Proof.
  induction xs as [|x xs IH]; intros h c ss H step s Hin Hs; cbn [run_steps] in H; [injection H as <-; destruct Hin|].
  destruct (step_batch l h c x) as [s0|] eqn:E; [|discriminate]. cbn [rbind] in H.
  destruct (run_steps l (map s_hidden s0) (map s_cell s0) xs) as [ss'|] eqn:E2; [|discriminate]. cbn [rbind] in H.
  injection H as <-. destruct Hin as [<- | Hin]; [|eapply IH; eassumption].
  apply step_batch_iff in E as (_ & _ & L & H). destruct (In_nth _ _ dstep Hs) as (b & Hb & <-).
  rewrite L in Hb. eauto.
Qed.

(** ** totality *)
Lemma vecmat_ok n x k : length x = length k -> exists m, vecmat n x k = Ok m.
Proof. intros H. unfold vecmat. rewrite H, Nat.eqb_refl. eexists; reflexivity. Qed.
Lemma lut_row_ok a xs : (forall x, In x xs -> exists v, lookup (la_table a) (x + la_offset a) = Ok v) -> exists r, lut_row a xs = Ok r.
Proof.
  unfold lut_row. induction xs as [|x xs IH]; intros H; [eexists; reflexivity|]. cbn [mapM].
  destruct (H x (or_introl eq_refl)) as (v & ->). destruct IH as (r & ->); [intros; apply H; now right|].
  eexists; reflexivity.
Qed.
Definition covers (a : lutact) (d : gdtype) : Prop :=
  forall q, gmin d <= q <= gmax d -> exists v, lookup (la_table a) (q + la_offset a) = Ok v.
Definition gate_ok (n f : nat) (g : gate) : Prop := length (g_kernel g) = f /\ length (g_rec g) = n.

Lemma step_row_ok l f h c x : int64_dtype (l_rec_dtype l) -> gmin (l_state_dtype l) <= gmax (l_state_dtype l) ->
  gate_ok (l_cells l) f (l_in l) -> gate_ok (l_cells l) f (l_forget l) ->
  gate_ok (l_cells l) f (l_cell l) -> gate_ok (l_cells l) f (l_out l) ->
  covers (l_in_lut l) (l_rec_dtype l) -> covers (l_forget_lut l) (l_rec_dtype l) ->
  covers (l_cell_lut l) (l_rec_dtype l) -> covers (l_out_lut l) (l_rec_dtype l) ->
  covers (l_state_lut l) (l_state_dtype l) ->
  length h = l_cells l -> length x = f ->
  exists s, step_row l h c x = Ok s /\ length (s_hidden s) = l_cells l.
Proof.
  intros Hr Hs (K1 & R1) (K2 & R2) (K3 & R3) (K4 & R4) C1 C2 C3 C4 C5 Lh Lx.
  unfold step_row. cbv zeta.
  assert (BA : forall g, length (g_kernel g) = f -> exists b, bias_add_row (l_cells l) g x = Ok b).
  { intros g Hg. unfold bias_add_row. destruct (vecmat_ok (l_cells l) x (g_kernel g)) as (m & ->); [congruence|]. eexists; reflexivity. }
  assert (RA : forall g b, length (g_rec g) = l_cells l -> exists r, recurrent_row (l_cells l) (l_rec_dtype l) g h b = Ok r /\ all_in (l_rec_dtype l) r).
  { intros g b Hg. destruct (vecmat_ok (l_cells l) h (g_rec g)) as (m & Hm); [congruence|].
    assert (E : exists r, recurrent_row (l_cells l) (l_rec_dtype l) g h b = Ok r) by (unfold recurrent_row; rewrite Hm; eexists; reflexivity).
    destruct E as (r & E). exists r. split; [exact E|]. eapply recurrent_row_in; eassumption. }
  destruct (BA _ K1) as (b1 & ->), (BA _ K2) as (b2 & ->), (BA _ K3) as (b3 & ->), (BA _ K4) as (b4 & ->). cbn [rbind].
  destruct (RA _ b1 R1) as (r1 & -> & I1), (RA _ b2 R2) as (r2 & -> & I2), (RA _ b3 R3) as (r3 & -> & I3), (RA _ b4 R4) as (r4 & -> & I4).
  cbn [rbind].
  destruct (lut_row_ok (l_in_lut l) r1) as (a1 & ->); [intros; apply C1; auto|].
  destruct (lut_row_ok (l_forget_lut l) r2) as (a2 & ->); [intros; apply C2; auto|].
  destruct (lut_row_ok (l_cell_lut l) r3) as (a3 & ->); [intros; apply C3; auto|].
  destruct (lut_row_ok (l_out_lut l) r4) as (a4 & ->); [intros; apply C4; auto|]. cbn [rbind].
  match goal with |- context [lut_row (l_state_lut l) ?c'] => destruct (lut_row_ok (l_state_lut l) c') as (a5 & ->) end.
  { intros q Hq. apply C5. apply in_map_iff in Hq as (j & <- & _). apply clipZ_range, Hs. }
  cbn [rbind]. eexists; split; [reflexivity|]. cbn [s_hidden]. now rewrite map_length, seq_length.
Qed.
