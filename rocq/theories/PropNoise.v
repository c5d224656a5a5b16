(** Property C93: the quantization-noise report of the quantizer's LSTM layer (debug mode).  The textbook LSTM (pre_at, gate_at,
    cell_at, act_at, hidden_at), the conditions and the error bound are those of C61-C63 (KLstmSpec.v). *)
From Verif Require Import Base BaseProofs DtypeModel DtypeProofs QuantModel QuantProofs LutModel LutProofs FcModel FcProofs FcLayer
  EngineModel EngineProofs DistModel DistProofs BuildModel PipeModel LstmModel KLstmModel PropCore PropFc PropEngine PropDist PropNodeLut PipeSpec PipeProofs
  LstmProofs PropLstm KLstmSpec KLstmProofs KLstmError PropKLstm NoiseModel.
From Coq Require Import Lqa Qminmax.
Open Scope Z_scope.
Open Scope list_scope.

(** ** Specification *)
(** mean of the squared differences of two tables of B samples x n units *)
Definition msd (B n : nat) (f g : nat -> nat -> Q) : Q :=
  (sumQ_upto B (fun i => sumQ_upto n (fun j => (f i j - g i j) * (f i j - g i j))) / (inject_Z (Z.of_nat B) * inject_Z (Z.of_nat n)))%Q.
(** the integer values of sample i at step t in the engine: what it computes for the rows of the report.  Rows 0-3: bias add of the
    four gates, 4-7 recurrent add, 8-11 activated gates, 12 cell state, 13 activated cell state, 14 hidden state *)
Definition engine_gate (eng : lstm) (g : nat) : gate := nth g [l_in eng; l_forget eng; l_cell eng; l_out eng] (l_in eng).
Definition engine_value (eng : lstm) (codes : list (list (list Z))) (rec : list (list step_rec)) (row t i : nat) : list Z :=
  let s := nth i (nth t rec []) (mkstep [] [] [] [] []) in
  if (row <? 4)%nat
  then match bias_add_row (l_cells eng) (engine_gate eng row) (map (fun v => i64 (v - l_input_zp eng)) (nth t (nth i codes []) [])) with
       | Ok r => r | Err _ => [] end
  else if (row <? 8)%nat then nth (row - 4) (s_pre s) []
  else if (row <? 12)%nat then nth (row - 8) (s_gates s) []
  else if (row =? 12)%nat then s_cell s else if (row =? 13)%nat then s_act s else s_hidden s.
(** the node giving their scale and zero point *)
Definition row_node (e : lstm_export) (row : nat) : node :=
  if (row <? 8)%nat then nth (13 + row) (le_ins e) dnode
  else if (row <? 12)%nat then x_gate e (row - 8)
  else if (row =? 12)%nat then x_cell e else if (row =? 13)%nat then x_act e else le_out e.
(** the real number they are compared with.  Rows 0-3 use the SAME pre-activations h U + (x K + b) as rows 4-7 *)
Definition float_value (fn : lfns) (l : klstm) (b : list Q) (xs : list (list Q)) (row t j : nat) : Q :=
  if (row <? 4)%nat then pre_at fn l b xs t row j
  else if (row <? 8)%nat then pre_at fn l b xs t (row - 4) j
  else if (row <? 12)%nat then gate_at fn l b xs t (row - 8) j
  else if (row =? 12)%nat then cell_at fn l b xs t j else if (row =? 13)%nat then act_at fn l b xs t j else hidden_at fn l b xs t j.
(** x K + b, what the engine's bias add stands for *)
Definition bias_at (l : klstm) (b : list Q) (xs : list (list Q)) (t g j : nat) : Q :=
  let x := nth t xs [] in
  (sumQ_upto (length x) (fun k => nth k x 0 * entry (kl_K l) (kl_units l) g k j) + nth (g * kl_units l + j) b 0)%Q.
(** the calibration samples as the input node quantizes them *)
Definition calib_codes (input : node) (data : list (list (list Q))) : list (list (list Z)) :=
  map (map (map (quant1 (n_dtype input) (zp0 input) (n_scale input)))) data.

(** ** Arrays *)
Definition arr {A} (T B n : nat) (f : nat -> nat -> nat -> A) : list (list (list A)) :=
  map (fun t => map (fun i => map (f t i) (seq 0 n)) (seq 0 B)) (seq 0 T).
Lemma list_eq_seq {A} (d : A) (m : list A) f n : length m = n -> (forall i, (i < n)%nat -> nth i m d = f i) -> m = map f (seq 0 n).
Proof.
  intros L H. apply nth_ext with (d := d) (d' := f 0%nat); [now rewrite map_length, seq_length|].
  intros i Hi. rewrite H by lia. rewrite map_nth, seq_nth by lia. reflexivity.
Qed.
Lemma sum_map_seq f n : sumQ (map f (seq 0 n)) = sumQ_upto n f.
Proof. reflexivity. Qed.
Lemma sumQ_app a c : (sumQ (a ++ c) == sumQ a + sumQ c)%Q.
Proof. induction a as [|x a IH]; cbn [app sumQ fold_right]; [unfold sumQ; cbn; ring|]. unfold sumQ in *. cbn [fold_right]. rewrite IH. ring. Qed.
Lemma map2_map {A B C D} (F : B -> C -> D) (f : A -> B) (g : A -> C) u : map2 F (map f u) (map g u) = map (fun x => F (f x) (g x)) u.
Proof. induction u as [|x u IH]; cbn [map map2]; [reflexivity|]. now rewrite IH. Qed.
Lemma map2_app {A B C} (F : A -> B -> C) a a' c c' : length a = length c -> map2 F (a ++ a') (c ++ c') = map2 F a c ++ map2 F a' c'.
Proof.
  revert c. induction a as [|x a IH]; intros [|y c] H; cbn in H; try discriminate H; [reflexivity|]. cbn [app map2]. rewrite IH by lia. reflexivity.
Qed.
Lemma concat_rows {A B C D} (F : A -> B -> C) (f : D -> nat -> A) (g : D -> nat -> B) n u :
  map2 F (concat (map (fun i => map (f i) (seq 0 n)) u)) (concat (map (fun i => map (g i) (seq 0 n)) u)) =
  concat (map (fun i => map (fun j => F (f i j) (g i j)) (seq 0 n)) u).
Proof.
  induction u as [|i u IH]; [reflexivity|]. cbn [map concat]. rewrite map2_app by now rewrite !map_length. rewrite IH, map2_map. reflexivity.
Qed.
Lemma sum_concat (f : nat -> nat -> Q) n u : (sumQ (concat (map (fun i => map (f i) (seq 0 n)) u)) == sumQ (map (fun i => sumQ_upto n (f i)) u))%Q.
Proof. induction u as [|i u IH]; [reflexivity|]. cbn [map concat]. rewrite sumQ_app, IH. reflexivity. Qed.
Lemma concat_len {A} (f : nat -> nat -> A) n u : length (concat (map (fun i => map (f i) (seq 0 n)) u)) = (length u * n)%nat.
Proof. induction u as [|i u IH]; [reflexivity|]. cbn [map concat length Nat.mul]. now rewrite app_length, IH, map_length, seq_length. Qed.
Lemma mse_rows B n (f g : nat -> nat -> Q) :
  (mse (map (fun i => map (f i) (seq 0 n)) (seq 0 B)) (map (fun i => map (g i) (seq 0 n)) (seq 0 B)) == msd B n f g)%Q.
Proof.
  unfold mse, msd. cbv zeta. rewrite concat_rows.
  rewrite (concat_len (fun i j => ((f i j - g i j) * (f i j - g i j))%Q)), seq_length, Nat2Z.inj_mul, inject_Z_mult.
  rewrite (sum_concat (fun i j => ((f i j - g i j) * (f i j - g i j))%Q)). reflexivity.
Qed.
Lemma same_arr {A} T B n (f : nat -> nat -> nat -> Q) (g : nat -> nat -> nat -> Q) (_ : A) : same_shape (arr T B n f) (arr T B n g) = true.
Proof.
  unfold same_shape, arr. rewrite !map_length, !Nat.eqb_refl. cbn [andb]. apply forallb_forall. intros (p & p') H.
  assert (C : forall (X Y Z : Type) (u : X -> Y) (v : X -> Z) k y z, In (y, z) (combine (map u k) (map v k)) -> exists x, y = u x /\ z = v x).
  { clear. intros X Y Z u v k. induction k as [|x k IH]; intros y z Hi; [destruct Hi|]. cbn [map combine] in Hi. destruct Hi as [E|Hi]; [|now apply IH].
    exists x. split; congruence. }
  apply C in H as (t & -> & ->). cbn [fst snd]. rewrite !map_length, Nat.eqb_refl. cbn [andb]. apply forallb_forall. intros (r & r') H.
  apply C in H as (i & -> & ->). cbn [fst snd]. rewrite !map_length. apply Nat.eqb_refl.
Qed.
Lemma noise_row_arr nd T B n (q : nat -> nat -> nat -> Z) (f : nat -> nat -> nat -> Q) :
  noise_row (nd, arr T B n q, arr T B n f) =
  Ok (map (fun t => mse (map (fun i => map (fun j => dequant1 (zp0 nd) (n_scale nd) (q t i j)) (seq 0 n)) (seq 0 B))
                        (map (fun i => map (f t i) (seq 0 n)) (seq 0 B))) (seq 0 T)).
Proof.
  unfold noise_row. cbv zeta.
  assert (E : deq nd (arr T B n q) = arr T B n (fun t i j => dequant1 (zp0 nd) (n_scale nd) (q t i j))).
  { unfold deq, arr. rewrite map_map. apply map_ext. intros t. rewrite map_map. apply map_ext. intros i. now rewrite map_map. }
  rewrite E, (same_arr T B n _ _ tt). unfold arr. rewrite map2_map. reflexivity.
Qed.

(** ** The engine's records as arrays *)
Lemma step_row_lengths eng h c x s : step_row eng h c x = Ok s ->
  (exists b0 b1 b2 b3, bias_add_row (l_cells eng) (l_in eng) x = Ok b0 /\ bias_add_row (l_cells eng) (l_forget eng) x = Ok b1 /\
     bias_add_row (l_cells eng) (l_cell eng) x = Ok b2 /\ bias_add_row (l_cells eng) (l_out eng) x = Ok b3) /\
  (forall g, (g < 4)%nat -> length (nth g (s_pre s) []) = l_cells eng) /\ (forall g, (g < 4)%nat -> length (nth g (s_gates s) []) = l_cells eng) /\
  length (s_cell s) = l_cells eng /\ length (s_act s) = l_cells eng /\ length (s_hidden s) = l_cells eng.
Proof.
  intros H. unfold step_row in H. cbv zeta in H.
  destruct (bias_add_row (l_cells eng) (l_in eng) x) as [bi|]; [|discriminate]. cbn [rbind] in H.
  destruct (bias_add_row (l_cells eng) (l_forget eng) x) as [bf|]; [|discriminate]. cbn [rbind] in H.
  destruct (bias_add_row (l_cells eng) (l_cell eng) x) as [bc|]; [|discriminate]. cbn [rbind] in H.
  destruct (bias_add_row (l_cells eng) (l_out eng) x) as [bo|]; [|discriminate]. cbn [rbind] in H.
  destruct (recurrent_row (l_cells eng) (l_rec_dtype eng) (l_in eng) h bi) as [ri|] eqn:Ri; [|discriminate]. cbn [rbind] in H.
  destruct (recurrent_row (l_cells eng) (l_rec_dtype eng) (l_forget eng) h bf) as [rf|] eqn:Rf; [|discriminate]. cbn [rbind] in H.
  destruct (recurrent_row (l_cells eng) (l_rec_dtype eng) (l_cell eng) h bc) as [rc|] eqn:Rc; [|discriminate]. cbn [rbind] in H.
  destruct (recurrent_row (l_cells eng) (l_rec_dtype eng) (l_out eng) h bo) as [ro|] eqn:Ro; [|discriminate]. cbn [rbind] in H.
  destruct (lut_row (l_in_lut eng) ri) as [ai|] eqn:Ai; [|discriminate]. cbn [rbind] in H.
  destruct (lut_row (l_forget_lut eng) rf) as [af|] eqn:Af; [|discriminate]. cbn [rbind] in H.
  destruct (lut_row (l_cell_lut eng) rc) as [ac|] eqn:Ac; [|discriminate]. cbn [rbind] in H.
  destruct (lut_row (l_out_lut eng) ro) as [ao|] eqn:Ao; [|discriminate]. cbn [rbind] in H.
  match type of H with rbind ?m _ = _ => destruct m as [aa|] eqn:Aa; [|discriminate] end. cbn [rbind] in H.
  match type of H with Ok ?t = _ => assert (E : s = t) by congruence end. subst s. clear H.
  assert (RL : forall g b r, recurrent_row (l_cells eng) (l_rec_dtype eng) g h b = Ok r -> length r = l_cells eng).
  { intros g b r R. unfold recurrent_row in R. destruct (vecmat (l_cells eng) h (g_rec g)) as [m|]; [|discriminate]. cbn [rbind] in R.
    assert (E : r = map (fun j => to_i64 (clipQ (gmin (l_rec_dtype eng)) (gmax (l_rec_dtype eng))
        (inject_Z (i64 (nth j m 0 + nth j b 0)) * g_M2 g + inject_Z (g_rzp g)))) (seq 0 (l_cells eng))) by congruence.
    rewrite E, map_length. apply seq_length. }
  apply RL in Ri, Rf, Rc, Ro. clear RL.
  unfold lut_row in Ai, Af, Ac, Ao, Aa. apply mapM_length in Ai, Af, Ac, Ao, Aa. rewrite map_length, seq_length in Aa.
  cbn [s_pre s_gates s_cell s_act s_hidden]. split; [exists bi, bf, bc, bo; split; [|split; [|split]]; reflexivity|].
  split; [apply lt4; cbn [nth]; assumption|]. split; [apply lt4; cbn [nth]; congruence|].
  rewrite !map_length, seq_length. split; [reflexivity|]. split; [exact Aa|reflexivity].
Qed.
(** every row of every step has gone through the step function *)
Lemma run_steps_all eng : forall xs h c ss, run_steps eng h c xs = Ok ss -> length ss = length xs /\
  forall t, (t < length xs)%nat -> length (nth t ss []) = length (nth t xs []) /\
    forall i, (i < length (nth t xs []))%nat -> exists h' c', step_row eng h' c' (nth i (nth t xs []) []) = Ok (nth i (nth t ss []) dstep).
Proof.
  induction xs as [|x xs IH]; intros h c ss H; cbn [run_steps] in H.
  - assert (ss = []) by congruence. subst ss. split; [reflexivity|]. intros t Ht. cbn in Ht. lia.
  - destruct (step_batch eng h c x) as [s0|] eqn:E; [|discriminate]. cbn [rbind] in H.
    destruct (run_steps eng (map s_hidden s0) (map s_cell s0) xs) as [ss'|] eqn:E2; [|discriminate]. cbn [rbind] in H.
    assert (ss = s0 :: ss') by congruence. subst ss. apply IH in E2 as (L & R). split; [cbn [length]; lia|].
    intros [|t] Ht; cbn [nth].
    + apply step_batch_iff in E as (_ & _ & L0 & H0). split; [exact L0|]. intros i Hi. eauto.
    + apply R. cbn [length] in Ht. lia.
Qed.

Definition chunk (eng : lstm) (codes : list (list (list Z))) (t i : nat) : list Z :=
  map (fun v => i64 (v - l_input_zp eng)) (nth t (nth i codes []) []).
Lemma timesteps_nth eng T codes t i : (t < T)%nat -> (i < length codes)%nat ->
  nth i (nth t (timesteps T (l_input_zp eng) codes) []) [] = chunk eng codes t i.
Proof.
  intros Ht Hi. unfold timesteps, chunk.
  rewrite (nth_map_seq (fun t => map (fun s => map (fun v => i64 (v - l_input_zp eng)) (nth t s [])) codes)) by exact Ht.
  rewrite (nth_map_in (fun s => map (fun v => i64 (v - l_input_zp eng)) (nth t s [])) codes i []) by exact Hi. reflexivity.
Qed.
Definition bias_code (eng : lstm) (codes : list (list (list Z))) (g t i : nat) : list Z :=
  match bias_add_row (l_cells eng) (engine_gate eng g) (chunk eng codes t i) with Ok r => r | Err _ => [] end.

Lemma engine_arrays eng T codes o rec : lstm_infer eng T codes = Ok (o, rec) ->
  let B := length codes in let n := l_cells eng in
  length rec = T /\ (forall t, (t < T)%nat -> length (nth t rec []) = B) /\
  (forall t i, (t < T)%nat -> (i < B)%nat -> exists h c, step_row eng h c (chunk eng codes t i) = Ok (nth i (nth t rec []) dstep)) /\
  bias_tensors eng T codes = Ok (map (fun t => map (fun i => map (fun g => bias_code eng codes g t i) (seq 0 4)) (seq 0 B)) (seq 0 T)).
Proof.
  intros H B n. apply infer_inv in H as (R & NR & _). apply run_steps_all in R as (L & R). rewrite timesteps_length in L, R.
  assert (TL : forall t, (t < T)%nat -> length (nth t (timesteps T (l_input_zp eng) codes) []) = B).
  { intros t Ht. apply (timesteps_rows T (l_input_zp eng)), nth_In. rewrite timesteps_length. exact Ht. }
  assert (ST : forall t i, (t < T)%nat -> (i < B)%nat -> exists h c, step_row eng h c (chunk eng codes t i) = Ok (nth i (nth t rec []) dstep)).
  { intros t i Ht Hi. destruct (R t Ht) as (_ & R2). rewrite (TL t Ht) in R2. specialize (R2 i Hi).
    rewrite (timesteps_nth eng T codes t i Ht Hi) in R2. exact R2. }
  split; [exact L|]. split; [intros t Ht; destruct (R t Ht) as (R1 & _); rewrite R1; now apply TL|]. split; [exact ST|].
  unfold bias_tensors.
  assert (E : timesteps T (l_input_zp eng) codes = map (fun t => map (fun i => chunk eng codes t i) (seq 0 B)) (seq 0 T)).
  { apply (list_eq_seq []); [apply timesteps_length|]. intros t Ht. apply (list_eq_seq []); [now apply TL|]. intros i Hi. now apply timesteps_nth. }
  rewrite E. clear E.
  assert (MM : forall (A C D : Type) (f : C -> res D) (u : A -> C) (w : A -> D) k, (forall x, In x k -> f (u x) = Ok (w x)) -> mapM f (map u k) = Ok (map w k)).
  { clear. intros A C D f u w k. induction k as [|x k IH]; intros H; cbn [map mapM]; [reflexivity|].
    rewrite (H x) by now left. cbn [rbind]. rewrite IH by (intros; apply H; now right). reflexivity. }
  apply MM. intros t Ht. apply in_seq in Ht. apply MM. intros i Hi. apply in_seq in Hi.
  destruct (ST t i ltac:(lia) ltac:(lia)) as (h & c & S1). apply step_row_lengths in S1 as ((b0 & b1 & b2 & b3 & E0 & E1 & E2 & E3) & _).
  unfold bias_rows, bias_code, engine_gate. cbn [seq map nth mapM]. rewrite E0, E1, E2, E3. reflexivity.
Qed.
Section Report.
  Variables (fn : lfns) (l : klstm) (b : list Q) (T : nat) (data : list (list (list Q))) (e : lstm_export) (eng : lstm).
  Variables (codes : list (list (list Z))) (o : lstm_out) (rec : list (list step_rec)).
  Hypothesis Sh : lstm_shaped l b T data.
  Hypothesis CL : l_cells eng = kl_units l.
  Hypothesis LC : length codes = length data.
  Hypothesis RUN : lstm_infer eng T codes = Ok (o, rec).
  Notation n := (kl_units l).
  Notation B := (length data).
  Notation frec := (reference fn l b T data).
  Definition item (row : nat) : node * list (list (list Z)) * list (list (list Q)) :=
    (row_node e row, arr T B n (fun t i j => nth j (engine_value eng codes rec row t i) 0), arr T B n (fun t i j => float_value fn l b (nth i data []) row t j)).
  Lemma q_arr (F : step_rec -> list Z) row : (forall s h c x, step_row eng h c x = Ok s -> length (F s) = l_cells eng) ->
    (forall t i, engine_value eng codes rec row t i = F (nth i (nth t rec []) dstep)) ->
    map (map F) rec = arr T B n (fun t i j => nth j (engine_value eng codes rec row t i) 0).
  Proof.
    intros HF HE. destruct (engine_arrays _ _ _ _ _ RUN) as (L1 & L2 & ST & _). unfold arr.
    apply (list_eq_seq []); [now rewrite map_length|]. intros t Ht. rewrite (nth_map_in (map F) rec t []) by lia.
    apply (list_eq_seq []); [rewrite map_length, L2 by exact Ht; exact LC|]. intros i Hi.
    rewrite (nth_map_in F (nth t rec []) i dstep) by (rewrite L2 by exact Ht; lia).
    destruct (ST t i Ht ltac:(lia)) as (h & c & S1). apply (list_eq_seq 0); [rewrite <- CL; eapply HF; exact S1|]. intros j Hj. now rewrite HE.
  Qed.
  Lemma f_arr (F : fstep -> list Q) row :
    (forall i t, (i < B)%nat -> (t < T)%nat -> F (nth i (nth t frec []) dfs) = map (float_value fn l b (nth i data []) row t) (seq 0 n)) ->
    map (map F) frec = arr T B n (fun t i j => float_value fn l b (nth i data []) row t j).
  Proof.
    intros HF. destruct (C61_sizes fn l b T data) as (L1 & L2). unfold arr.
    apply (list_eq_seq []); [now rewrite map_length|]. intros t Ht. rewrite (nth_map_in (map F) frec t []) by lia.
    assert (LT : length (nth t frec []) = B) by (apply L2, nth_In; lia).
    apply (list_eq_seq []); [now rewrite map_length|]. intros i Hi.
    rewrite (nth_map_in F (nth t frec []) i dfs) by lia. exact (HF i t Hi Ht).
  Qed.
  Lemma bias_arr ba g : (g < 4)%nat -> bias_tensors eng T codes = Ok ba ->
    gate_of g ba = arr T B n (fun t i j => nth j (engine_value eng codes rec g t i) 0).
  Proof.
    intros Hg H. destruct (engine_arrays _ _ _ _ _ RUN) as (_ & _ & ST & BT).
    match type of BT with _ = Ok ?v => assert (ba = v) by congruence end. subst ba. clear H BT.
    unfold gate_of, arr. rewrite map_map. apply map_ext_in. intros t Ht. apply in_seq in Ht. rewrite map_map, LC.
    apply map_ext_in. intros i Hi. apply in_seq in Hi. rewrite (nth_map_seq (fun g => bias_code eng codes g t i)) by exact Hg.
    assert (EV : engine_value eng codes rec g t i = bias_code eng codes g t i).
    { unfold engine_value. destruct (Nat.ltb_spec g 4); [reflexivity|lia]. }
    apply (list_eq_seq 0); [|intros j Hj; now rewrite EV].
    destruct (ST t i ltac:(lia) ltac:(lia)) as (h & c & S1). apply step_row_lengths in S1 as ((b0 & b1 & b2 & b3 & E0 & E1 & E2 & E3) & _).
    assert (BL : forall G r, bias_add_row (l_cells eng) G (chunk eng codes t i) = Ok r -> length r = n).
    { intros G r R. unfold bias_add_row in R. destruct (vecmat _ _ _) as [m|]; [|discriminate]. cbn [rbind] in R.
      assert (E : r = map (fun j => to_i64 (g_M1 G * inject_Z (i64 (nth j m 0 + nth j (g_bias G) 0)))) (seq 0 (l_cells eng))) by congruence.
      rewrite E, map_length, seq_length. exact CL. }
    unfold bias_code, engine_gate. clear EV. revert g Hg. apply lt4; cbn [nth].
    - rewrite E0. eapply BL; exact E0.
    - rewrite E1. eapply BL; exact E1.
    - rewrite E2. eapply BL; exact E2.
    - rewrite E3. eapply BL; exact E3.
  Qed.
  Lemma rows_items ba : bias_tensors eng T codes = Ok ba ->
    let at_ k := nth k (le_ins e) dnode in
    let qt {A} (f : step_rec -> A) := map (map f) rec in
    let ft f := map (map f) frec in
    let split4 g := ft (fun s => part n g (fs_pre s)) in
    [(at_ 13%nat, gate_of 0 ba, split4 0%nat); (at_ 14%nat, gate_of 1 ba, split4 1%nat);
     (at_ 15%nat, gate_of 2 ba, split4 2%nat); (at_ 16%nat, gate_of 3 ba, split4 3%nat);
     (at_ 17%nat, gate_of 0 (qt s_pre), split4 0%nat); (at_ 18%nat, gate_of 1 (qt s_pre), split4 1%nat);
     (at_ 19%nat, gate_of 2 (qt s_pre), split4 2%nat); (at_ 20%nat, gate_of 3 (qt s_pre), split4 3%nat);
     (at_ 23%nat, gate_of 0 (qt s_gates), ft fs_i); (at_ 25%nat, gate_of 1 (qt s_gates), ft fs_f);
     (at_ 27%nat, gate_of 2 (qt s_gates), ft fs_g); (at_ 29%nat, gate_of 3 (qt s_gates), ft fs_o);
     (at_ 21%nat, qt s_cell, ft fs_c); (at_ 31%nat, qt s_act, ft fs_a); (le_out e, qt s_hidden, ft fs_h)] = map item (seq 0 15).
  Proof.
    intros HB at_ qt ft split4.
    assert (FS : forall g row, (g < 4)%nat -> (row = g \/ row = 4 + g)%nat -> split4 g = arr T B n (fun t i j => float_value fn l b (nth i data []) row t j)).
    { intros g row Hg Hr. apply f_arr. intros i t Hi Ht. destruct (C61_records fn l b T data i t Sh Hi Ht) as (_ & P & _).
      transitivity (map (pre_at fn l b (nth i data []) t g) (seq 0 n)); [exact (P g Hg)|]. apply map_ext. intros j. unfold float_value.
      destruct Hr as [-> | ->].
      - destruct (Nat.ltb_spec g 4); [reflexivity|lia].
      - destruct (Nat.ltb_spec (4 + g) 4); [lia|]. destruct (Nat.ltb_spec (4 + g) 8); [|lia]. replace (4 + g - 4)%nat with g by lia. reflexivity. }
    assert (QP : forall g, (g < 4)%nat -> gate_of g (qt _ s_pre) = arr T B n (fun t i j => nth j (engine_value eng codes rec (4 + g) t i) 0)).
    { intros g Hg. unfold gate_of, qt. rewrite map_map. rewrite (map_ext _ (map (fun s => nth g (s_pre s) []))) by (intros u; apply map_map).
      apply q_arr.
      - intros s h c x H. apply step_row_lengths in H as (_ & H & _). apply H, Hg.
      - intros t i. unfold engine_value. destruct (Nat.ltb_spec (4 + g) 4); [lia|]. destruct (Nat.ltb_spec (4 + g) 8); [|lia].
        replace (4 + g - 4)%nat with g by lia. reflexivity. }
    assert (QG : forall g, (g < 4)%nat -> gate_of g (qt _ s_gates) = arr T B n (fun t i j => nth j (engine_value eng codes rec (8 + g) t i) 0)).
    { intros g Hg. unfold gate_of, qt. rewrite map_map. rewrite (map_ext _ (map (fun s => nth g (s_gates s) []))) by (intros u; apply map_map).
      apply q_arr.
      - intros s h c x H. apply step_row_lengths in H as (_ & _ & H & _). apply H, Hg.
      - intros t i. unfold engine_value. destruct (Nat.ltb_spec (8 + g) 4); [lia|]. destruct (Nat.ltb_spec (8 + g) 8); [lia|].
        destruct (Nat.ltb_spec (8 + g) 12); [|lia]. replace (8 + g - 8)%nat with g by lia. reflexivity. }
    assert (QC : qt _ s_cell = arr T B n (fun t i j => nth j (engine_value eng codes rec 12 t i) 0)).
    { apply q_arr; [|reflexivity]. intros s h c x H. apply step_row_lengths in H as (_ & _ & _ & H & _). exact H. }
    assert (QA : qt _ s_act = arr T B n (fun t i j => nth j (engine_value eng codes rec 13 t i) 0)).
    { apply q_arr; [|reflexivity]. intros s h c x H. apply step_row_lengths in H as (_ & _ & _ & _ & H & _). exact H. }
    assert (QH : qt _ s_hidden = arr T B n (fun t i j => nth j (engine_value eng codes rec 14 t i) 0)).
    { apply q_arr; [|reflexivity]. intros s h c x H. apply step_row_lengths in H as (_ & _ & _ & _ & _ & H). exact H. }
    assert (Fi : ft fs_i = arr T B n (fun t i j => float_value fn l b (nth i data []) 8 t j)).
    { apply f_arr. intros i t Hi Ht. now destruct (C61_records fn l b T data i t Sh Hi Ht) as (_ & _ & P & _). }
    assert (Ff : ft fs_f = arr T B n (fun t i j => float_value fn l b (nth i data []) 9 t j)).
    { apply f_arr. intros i t Hi Ht. now destruct (C61_records fn l b T data i t Sh Hi Ht) as (_ & _ & _ & P & _). }
    assert (Fg : ft fs_g = arr T B n (fun t i j => float_value fn l b (nth i data []) 10 t j)).
    { apply f_arr. intros i t Hi Ht. now destruct (C61_records fn l b T data i t Sh Hi Ht) as (_ & _ & _ & _ & P & _). }
    assert (Fo : ft fs_o = arr T B n (fun t i j => float_value fn l b (nth i data []) 11 t j)).
    { apply f_arr. intros i t Hi Ht. now destruct (C61_records fn l b T data i t Sh Hi Ht) as (_ & _ & _ & _ & _ & P & _). }
    assert (Fc : ft fs_c = arr T B n (fun t i j => float_value fn l b (nth i data []) 12 t j)).
    { apply f_arr. intros i t Hi Ht. now destruct (C61_records fn l b T data i t Sh Hi Ht) as (_ & _ & _ & _ & _ & _ & P & _). }
    assert (Fa : ft fs_a = arr T B n (fun t i j => float_value fn l b (nth i data []) 13 t j)).
    { apply f_arr. intros i t Hi Ht. now destruct (C61_records fn l b T data i t Sh Hi Ht) as (_ & _ & _ & _ & _ & _ & _ & P & _). }
    assert (Fh : ft fs_h = arr T B n (fun t i j => float_value fn l b (nth i data []) 14 t j)).
    { apply f_arr. intros i t Hi Ht. now destruct (C61_records fn l b T data i t Sh Hi Ht) as (_ & _ & _ & _ & _ & _ & _ & _ & P). }
    assert (L0 : (0 < 4)%nat) by lia. assert (L1 : (1 < 4)%nat) by lia. assert (L2 : (2 < 4)%nat) by lia. assert (L3 : (3 < 4)%nat) by lia.
    pose proof (bias_arr ba 0 L0 HB) as B0. pose proof (bias_arr ba 1 L1 HB) as B1. pose proof (bias_arr ba 2 L2 HB) as B2. pose proof (bias_arr ba 3 L3 HB) as B3.
    rewrite B0, B1, B2, B3, (QP _ L0), (QP _ L1), (QP _ L2), (QP _ L3), (QG _ L0), (QG _ L1), (QG _ L2), (QG _ L3), QC, QA, QH, Fi, Ff, Fg, Fo, Fc, Fa, Fh.
    cbn [seq map]. unfold item.
    repeat (apply (f_equal2 (@cons _)); [apply (f_equal2 pair); [reflexivity|try reflexivity; apply FS; [assumption|lia]]|]). reflexivity.
  Qed.
  Lemma report_items input : nth 0 (le_ins e) dnode = input -> input_codes input data = Ok codes ->
    lstm_from_model (le_ins e) (le_out e) (kl_seq l) = Ok eng ->
    noise_report l frec e T data = mapM noise_row (map item (seq 0 15)).
  Proof.
    intros HI HC HM. destruct (engine_arrays _ _ _ _ _ RUN) as (_ & _ & _ & BT).
    unfold noise_report. cbv zeta. rewrite HI, HC. cbn [rbind]. rewrite HM. cbn [rbind]. rewrite RUN. cbn [rbind snd].
    match type of BT with _ = Ok ?v => set (ba := v) in * end. rewrite BT. cbn [rbind]. f_equal. exact (rows_items ba BT).
  Qed.
End Report.

(** ** C93 *)
(** Debug mode never changes what the layer exports; without it nothing is reported. *)
Theorem C93_same_export : forall debug fn dt l input T data e rep, klstm_quantize_debug debug fn dt l input T data = Ok (e, rep) ->
  klstm_quantize fn dt l input T data = Ok e /\ (rep <> None <-> debug = true).
Proof.
  intros debug fn dt l input T data e rep H. unfold klstm_quantize_debug in H. destruct (klstm_quantize fn dt l input T data) as [e'|]; [|discriminate].
  cbn [rbind] in H. destruct debug.
  - destruct (noise_report _ _ _ _ _) as [r|]; [|discriminate]. cbn [rbind] in H.
    assert (e' = e /\ rep = Some r) as (-> & ->) by (split; congruence). split; [reflexivity|]. split; [reflexivity|discriminate].
  - assert (e' = e /\ rep = None) as (-> & ->) by (split; congruence). split; [reflexivity|]. split; [congruence|discriminate].
Qed.

(** The report: fifteen rows with one number per time step, each the mean over samples and units of the squared difference between the
    dequantized value the engine computes and the value of the float pass.  It is always produced. *)
Theorem C93_report : forall fn dt q l b T data input qi e,
  lstm_shaped l b T data -> good_ldt dt q -> node_good input qi ->
  klstm_quantize fn dt l input T data = Ok e -> lstm_file_ok l (q_bias q) e ->
  exists eng o rec rep, lstm_from_model (le_ins e) (le_out e) (kl_seq l) = Ok eng /\
    lstm_infer eng T (calib_codes input data) = Ok (o, rec) /\
    klstm_quantize_debug true fn dt l input T data = Ok (e, Some rep) /\ length rep = 15%nat /\
    forall row t, (row < 15)%nat -> (t < T)%nat -> length (nth row rep []) = T /\
      (nth t (nth row rep []) 0 ==
       msd (length data) (kl_units l)
         (fun i j => dequant1 (zp0 (row_node e row)) (n_scale (row_node e row)) (nth j (engine_value eng (calib_codes input data) rec row t i) 0%Z))
         (fun i j => float_value fn l b (nth i data []) row t j))%Q.
Proof.
  intros fn dt q l b T data input qi e Sh GD IG EQ FO.
  destruct (export_ok fn dt q l b T data input Sh GD) as (e' & E' & EX). assert (e' = e) by congruence. subst e'. clear E'.
  destruct (engine_builds _ _ _ _ _ _ _ _ _ Sh GD EX FO (kl_seq l)) as (eng & G & EB).
  assert (FM : lstm_from_model (le_ins e) (le_out e) (kl_seq l) = Ok eng) by (rewrite (from_model_eq _ _ _ _ _ _ _ _ EX); apply (eb_build _ _ _ _ _ _ _ _ EB)).
  set (codes := calib_codes input data).
  assert (LC : length codes = length data) by apply map_length.
  assert (NC : codes <> []) by (intros Z; rewrite Z in LC; apply (ls_data _ _ _ _ Sh); now destruct data).
  destruct (run_total _ _ _ _ _ _ _ _ _ Sh GD EX (kl_seq l) eng G T codes EB (ls_T _ _ _ _ Sh) NC) as ((o & rec) & RUN).
  { intros s t Hs Ht. unfold codes, calib_codes in Hs. apply in_map_iff in Hs as (xs & <- & Hx).
    pose proof (ls_time _ _ _ _ Sh xs Hx) as LX. rewrite (nth_map_in (map _) xs t []) by lia. rewrite map_length.
    apply (ls_rows _ _ _ _ Sh xs); [exact Hx|]. apply nth_In. lia. }
  assert (IC : input_codes input data = Ok codes).
  { destruct (ng_zp _ _ IG) as (z & Z & _). unfold input_codes. rewrite Z. unfold codes, calib_codes, zp0. now rewrite Z. }
  pose proof (report_items fn l b T data e eng codes o rec Sh (eb_cells _ _ _ _ _ _ _ _ EB) LC RUN input (le_input _ _ _ _ _ _ _ _ EX) IC FM) as RI.
  set (rowv := fun row => map (fun t => mse (map (fun i => map (fun j => dequant1 (zp0 (row_node e row)) (n_scale (row_node e row)) (nth j (engine_value eng codes rec row t i) 0)) (seq 0 (kl_units l))) (seq 0 (length data)))
                        (map (fun i => map (fun j => float_value fn l b (nth i data []) row t j) (seq 0 (kl_units l))) (seq 0 (length data)))) (seq 0 T)).
  assert (RR : noise_report l (reference fn l b T data) e T data = Ok (map rowv (seq 0 15))).
  { rewrite RI. assert (MM : forall k, mapM noise_row (map (item fn l b T data e eng codes rec) k) = Ok (map rowv k)); [|apply MM].
    clear. induction k as [|r k IH]; [reflexivity|]. cbn [map mapM]. unfold item at 1.
    pose proof (noise_row_arr (row_node e r) T (length data) (kl_units l) (fun t i j => nth j (engine_value eng codes rec r t i) 0) (fun t i j => float_value fn l b (nth i data []) r t j)) as NR.
    cbv beta in NR. rewrite NR. cbn [rbind]. rewrite IH. reflexivity. }
  exists eng, o, rec, (map rowv (seq 0 15)). split; [exact FM|]. split; [exact RUN|]. split.
  { unfold klstm_quantize_debug. rewrite EQ. cbn [rbind]. rewrite (ls_bias _ _ _ _ Sh), RR. reflexivity. }
  split; [now rewrite map_length|]. intros row t Hr Ht. rewrite (nth_map_seq rowv 15 row []) by exact Hr. unfold rowv. split; [now rewrite map_length, seq_length|].
  rewrite (nth_map_seq _ T t 0%Q) by exact Ht. apply (mse_rows (length data) (kl_units l)
    (fun i j => dequant1 (zp0 (row_node e row)) (n_scale (row_node e row)) (nth j (engine_value eng codes rec row t i) 0)) (fun i j => float_value fn l b (nth i data []) row t j)).
Qed.

(** How far the values of a row may be from those of the float pass at step t, in terms of the per-step bounds of C63 *)
Definition row_bound (l : klstm) (qc : gdtype) (e : lstm_export) (Ls Ds Lt Dt X ex : Q) (row t : nat) : Q :=
  let '(eh, ec) := b_state l qc e Ls Ds Lt Dt X ex t in
  let bc := b_cell l qc e Ls Ds Lt Dt X ex eh ec in
  (if (row <? 8)%nat then b_pre l e X ex (row - 4) eh
   else if (row <? 12)%nat then b_gate l e Ls Ds Lt Dt X ex (row - 8) eh
   else if (row =? 12)%nat then bc else if (row =? 13)%nat then Lt * bc + Dt + n_scale (x_act e) * (1#2)
   else b_hidden l qc e Ls Ds Lt Dt X ex eh ec)%Q.

Lemma engine_pre eng codes rec g t i : (g < 4)%nat -> engine_value eng codes rec (4 + g) t i = nth g (s_pre (nth i (nth t rec []) dstep)) [].
Proof.
  intros Hg. unfold engine_value. destruct (Nat.ltb_spec (4 + g) 4); [lia|]. destruct (Nat.ltb_spec (4 + g) 8); [|lia].
  replace (4 + g - 4)%nat with g by lia. reflexivity.
Qed.
Lemma engine_act eng codes rec g t i : (g < 4)%nat -> engine_value eng codes rec (8 + g) t i = nth g (s_gates (nth i (nth t rec []) dstep)) [].
Proof.
  intros Hg. unfold engine_value. destruct (Nat.ltb_spec (8 + g) 4); [lia|]. destruct (Nat.ltb_spec (8 + g) 8); [lia|].
  destruct (Nat.ltb_spec (8 + g) 12); [|lia]. replace (8 + g - 8)%nat with g by lia. reflexivity.
Qed.

(** Every intermediate tensor of the engine except the bias add (C63 is about the hidden states only): its values are values of its
    node's dtype, and close to the float pass. *)
Theorem C93_intermediate : forall fn dt q l b T data input qi e Ls Ds Lt Dt,
  lstm_shaped l b T data -> good_ldt dt q -> node_good input qi -> short qi ->
  klstm_quantize fn dt l input T data = Ok e -> lstm_file_ok l (q_bias q) e ->
  bounded_lip (fn_sig fn) Ls Ds -> bounded_lip (fn_tanh fn) Lt Dt ->
  exists eng, lstm_from_model (le_ins e) (le_out e) (kl_seq l) = Ok eng /\
  forall T' X ex batch codes, (0 < T')%nat -> batch <> [] -> (0 <= ex)%Q ->
    Forall2 (stands_for input (length (kl_K l)) T' X ex) codes batch -> (forall xs, In xs batch -> lstm_covered fn l b T data xs) ->
  exists o rec, lstm_infer eng T' codes = Ok (o, rec) /\
    forall row t i j, (4 <= row < 15)%nat -> (t < T')%nat -> (i < length batch)%nat -> (j < kl_units l)%nat ->
      let c := nth j (engine_value eng codes rec row t i) 0 in
      in_dtype (n_dtype (row_node e row)) c /\
      (Qabs (val (row_node e row) c - float_value fn l b (nth i batch []) row t j) <= row_bound l (q_cell q) e Ls Ds Lt Dt X ex row t)%Q.
Proof.
  intros fn dt q l b T data input qi e Ls Ds Lt Dt Sh GD IG IS EQ FO LS LT.
  destruct (export_ok fn dt q l b T data input Sh GD) as (e' & E' & EX). assert (e' = e) by congruence. subst e'. clear E'.
  destruct (engine_builds _ _ _ _ _ _ _ _ _ Sh GD EX FO (kl_seq l)) as (eng & G & EB).
  exists eng. split; [rewrite (from_model_eq _ _ _ _ _ _ _ _ EX); apply (eb_build _ _ _ _ _ _ _ _ EB)|].
  intros T' X ex batch codes HT NE E0 SF COV.
  pose proof (F2_length _ _ _ SF) as LB.
  assert (AT : forall i, (i < length batch)%nat -> stands_for input (length (kl_K l)) T' X ex (nth i codes []) (nth i batch [])).
  { clear - SF. induction SF as [|c x cs xs H _ IH]; intros i Hi; [cbn in Hi; lia|]. destruct i as [|i]; [exact H|]. apply IH. cbn in Hi. lia. }
  assert (NC : codes <> []) by (intros Z; rewrite Z in LB; destruct batch; [congruence|discriminate LB]).
  destruct (run_total _ _ _ _ _ _ _ _ _ Sh GD EX (kl_seq l) eng G T' codes EB HT NC) as ((o & rec) & RUN).
  { intros s t Hs Ht. apply In_nth with (d := []) in Hs as (i & Hi & <-). destruct (AT i ltac:(lia)) as (_ & _ & A). apply (A t Ht). }
  exists o, rec. split; [exact RUN|].
  destruct (infer_inv _ _ _ _ _ RUN) as (RS & NR & EO).
  pose proof (ls_units _ _ _ _ Sh) as UP. pose proof (eb_cells _ _ _ _ _ _ _ _ EB) as CL.
  assert (LC : (length codes <> 0)%nat) by (destruct codes; [congruence|cbn; lia]).
  assert (CN : (l_cells eng <> 0)%nat) by lia.
  apply (proj1 (infer_rows eng T' codes rec LC CN)) in RS as (LR & LRs & ROW).
  intros row t i j Hrow Ht Hi Hj. cbv zeta.
  destruct (AT i Hi) as (A1 & A2 & A3).
  assert (NI : nth_error codes i = Some (nth i codes [])) by (apply nth_error_nth'; lia).
  pose proof (ROW i _ NI) as RR. rewrite CL, (eb_izp _ _ _ _ _ _ _ _ EB) in RR.
  assert (EM : map (fun t => map (fun v => i64 (v - zp0 input)) (nth t (nth i codes []) [])) (seq 0 T') =
               map (map (fun v => i64 (v - zp0 input))) (nth i codes [])).
  { transitivity (map (map (fun v => i64 (v - zp0 input))) (map (fun t => nth t (nth i codes []) []) (seq 0 T'))); [now rewrite map_map|].
    f_equal. rewrite <- A2. apply map_nth_id. }
  rewrite EM in RR.
  destruct (run_close_all _ _ _ _ _ _ _ _ _ _ Sh GD EX FO IG IS Ls Ds Lt Dt X ex LS LT E0 (kl_seq l) eng G (nth i batch []) (nth i codes []) (rowb dstep i rec) EB
    ltac:(congruence)) with (t := t) as (R1 & R2 & R3 & (R4 & R5) & R6).
  { intros t' Ht'. rewrite A1 in Ht'. destruct (A3 t' Ht') as (B1 & B2 & B3 & B4 & B5).
    split; [exact B2|]. split; [exact B1|]. split; [rewrite <- (ng_dtype _ _ IG); exact B4|]. split; [exact B5|exact B3]. }
  { apply COV, nth_In, Hi. }
  { exact RR. }
  { lia. }
  assert (ER : nth t (rowb dstep i rec) dstep = nth i (nth t rec []) dstep).
  { unfold rowb. rewrite (nth_map_in (fun x => nth i x dstep) rec t []) by lia. reflexivity. }
  rewrite ER in *. clear ER.
  unfold row_bound, b_out in *. destruct (b_state l (q_cell q) e Ls Ds Lt Dt X ex t) as (eh & ec). cbn [fst snd] in *.
  rewrite <- (state_snoc fn l b (nth i batch []) t) in R5 by lia.
  set (r := nth i (nth t rec []) dstep) in *.
  assert (C1 : (4 <= row < 8 \/ 8 <= row < 12 \/ row = 12 \/ row = 13 \/ row = 14)%nat) by lia.
  destruct C1 as [C1|[C1|[-> |[-> | ->]]]].
  - set (g := (row - 4)%nat). assert (Eg : row = (4 + g)%nat) by (unfold g; lia). clearbody g. subst row. assert (Hg : (g < 4)%nat) by lia.
    rewrite engine_pre by exact Hg. fold r. destruct (R4 g j Hg Hj) as ((P1 & P2) & _).
    assert (EN : row_node e (4 + g) = x_pre e g) by (unfold row_node; destruct (Nat.ltb_spec (4 + g) 8); [reflexivity|lia]).
    assert (EF : float_value fn l b (nth i batch []) (4 + g) t j = pre_at fn l b (nth i batch []) t g j).
    { unfold float_value. destruct (Nat.ltb_spec (4 + g) 4); [lia|]. destruct (Nat.ltb_spec (4 + g) 8); [|lia]. now replace (4 + g - 4)%nat with g by lia. }
    rewrite EN, EF, (ng_dtype _ _ (proj1 (le_pre _ _ _ _ _ _ _ _ EX g Hg))). destruct (Nat.ltb_spec (4 + g) 8); [|lia].
    replace (4 + g - 4)%nat with g by lia. split; [exact P1|exact P2].
  - set (g := (row - 8)%nat). assert (Eg : row = (8 + g)%nat) by (unfold g; lia). clearbody g. subst row. assert (Hg : (g < 4)%nat) by lia.
    rewrite engine_act by exact Hg. fold r. destruct (R4 g j Hg Hj) as (_ & P1 & P2).
    assert (EN : row_node e (8 + g) = x_gate e g).
    { unfold row_node. destruct (Nat.ltb_spec (8 + g) 8); [lia|]. destruct (Nat.ltb_spec (8 + g) 12); [|lia]. now replace (8 + g - 8)%nat with g by lia. }
    assert (EF : float_value fn l b (nth i batch []) (8 + g) t j = gate_at fn l b (nth i batch []) t g j).
    { unfold float_value. destruct (Nat.ltb_spec (8 + g) 4); [lia|]. destruct (Nat.ltb_spec (8 + g) 8); [lia|].
      destruct (Nat.ltb_spec (8 + g) 12); [|lia]. now replace (8 + g - 8)%nat with g by lia. }
    rewrite EN, EF, (ng_dtype _ _ (proj1 (le_gate _ _ _ _ _ _ _ _ EX g Hg))), (gl_act _ _ GD).
    destruct (Nat.ltb_spec (8 + g) 8); [lia|]. destruct (Nat.ltb_spec (8 + g) 12); [|lia].
    replace (8 + g - 8)%nat with g by lia. split; [exact P1|exact P2].
  - change (engine_value eng codes rec 12 t i) with (s_cell r). change (row_node e 12) with (x_cell e). cbn [Nat.ltb Nat.leb Nat.eqb].
    rewrite (ng_dtype _ _ (proj1 (le_cell _ _ _ _ _ _ _ _ EX))). destruct R6 as (Q1 & Q2 & _ & Q4 & _).
    split; [apply Q2, nth_In; lia|]. exact (Q4 j Hj).
  - change (engine_value eng codes rec 13 t i) with (s_act r). change (row_node e 13) with (x_act e). cbn [Nat.ltb Nat.leb Nat.eqb].
    rewrite (ng_dtype _ _ (proj1 (le_act _ _ _ _ _ _ _ _ EX))). exact (R5 j Hj).
  - change (engine_value eng codes rec 14 t i) with (s_hidden r). change (row_node e 14) with (le_out e). cbn [Nat.ltb Nat.leb Nat.eqb].
    rewrite (ng_dtype _ _ (proj1 (le_hidden _ _ _ _ _ _ _ _ EX))). split; [apply R2, nth_In; lia|exact (R3 j Hj)].
Qed.

(** The report of a layer whose input node represents the calibration samples, when it was calibrated on at most [units] steps: every
    number of every row except the bias-add rows is at most the square of the error bound. *)
Lemma sum_nonneg n f : (forall i, (i < n)%nat -> (0 <= f i)%Q) -> (0 <= sumQ_upto n f)%Q.
Proof.
  intros H. apply Qle_trans with (sumQ_upto n (fun _ => 0%Q)); [rewrite sumQ_upto_const; lra|]. apply sumQ_upto_le. exact H.
Qed.
Lemma msd_bound B n f g E : (0 < B)%nat -> (0 < n)%nat -> (forall i j, (i < B)%nat -> (j < n)%nat -> (Qabs (f i j - g i j) <= E)%Q) ->
  (0 <= msd B n f g <= E * E)%Q.
Proof.
  intros HB Hn H. unfold msd.
  assert (PB : (0 < inject_Z (Z.of_nat B))%Q) by (change 0%Q with (inject_Z 0); rewrite <- Zlt_Qlt; lia).
  assert (PN : (0 < inject_Z (Z.of_nat n))%Q) by (change 0%Q with (inject_Z 0); rewrite <- Zlt_Qlt; lia).
  assert (PP : (0 < inject_Z (Z.of_nat B) * inject_Z (Z.of_nat n))%Q) by (apply Qmult_lt_0_compat; assumption).
  assert (SQ : forall i j, (i < B)%nat -> (j < n)%nat -> (0 <= (f i j - g i j) * (f i j - g i j) <= E * E)%Q).
  { intros i j Hi Hj. specialize (H i j Hi Hj). apply Qabs_Qle_condition in H. set (d := (f i j - g i j)%Q) in *. clearbody d. destruct H as [H1 H2]. split.
    - destruct (Qlt_le_dec d 0); [setoid_replace (d * d)%Q with ((- d) * (- d))%Q by ring|]; apply Qmult_le_0_compat; lra.
    - assert (K : (0 <= (E - d) * (E + d))%Q) by (apply Qmult_le_0_compat; lra).
      setoid_replace (E * E)%Q with ((E - d) * (E + d) + d * d)%Q by ring. lra. }
  split.
  - apply Qle_shift_div_l; [exact PP|]. rewrite Qmult_0_l. apply sum_nonneg. intros i Hi. apply sum_nonneg. intros j Hj. apply SQ; assumption.
  - apply Qle_shift_div_r; [exact PP|].
    apply Qle_trans with (sumQ_upto B (fun i => sumQ_upto n (fun j => (E * E)%Q))).
    + apply sumQ_upto_le. intros i Hi. apply sumQ_upto_le. intros j Hj. apply SQ; assumption.
    + assert (EQ : (sumQ_upto B (fun _ => sumQ_upto n (fun _ => E * E)%Q) == inject_Z (Z.of_nat B) * (inject_Z (Z.of_nat n) * (E * E)))%Q).
      { rewrite (sumQ_upto_const B). rewrite sumQ_upto_const. reflexivity. }
      rewrite EQ. lra.
Qed.
Lemma msd_ext B n f f' g g' : (forall i j, (i < B)%nat -> (j < n)%nat -> f i j = f' i j /\ g i j = g' i j) -> msd B n f g = msd B n f' g'.
Proof.
  intros H. unfold msd. f_equal. apply sumQ_upto_ext. intros i Hi. apply sumQ_upto_ext. intros j Hj. destruct (H i j Hi Hj) as (-> & ->). reflexivity.
Qed.
Lemma deq_val nd q c : short q -> node_good nd q -> in_dtype q c -> dequant1 (zp0 nd) (n_scale nd) c = (inject_Z (c - zp0 nd) * n_scale nd)%Q.
Proof.
  intros S1 G C. destruct (ng_zp _ _ G) as (z & Z1 & Z2). assert (EZ : zp0 nd = z) by (unfold zp0; now rewrite Z1). rewrite EZ. clear EZ Z1.
  unfold short, in_dtype in *. assert (2 ^ 16 = 65536) by reflexivity. assert (2 ^ 31 = 2147483648) by reflexivity.
  unfold dequant1. rewrite (wrap_s_id 32 c), wrap_s_id by lia. reflexivity.
Qed.
Theorem C93_bounded : forall fn dt q l b T data input qi e Ls Ds Lt Dt X,
  lstm_shaped l b T data -> good_ldt dt q -> node_good input qi -> short qi ->
  klstm_quantize fn dt l input T data = Ok e -> lstm_file_ok l (q_bias q) e ->
  bounded_lip (fn_sig fn) Ls Ds -> bounded_lip (fn_tanh fn) Lt Dt ->
  (T <= kl_units l)%nat ->
  (forall xs r, In xs data -> In r xs -> (abssum r <= X)%Q /\ forall v, In v r -> represents input v) ->
  exists rep, klstm_quantize_debug true fn dt l input T data = Ok (e, Some rep) /\
    forall row t, (4 <= row < 15)%nat -> (t < T)%nat ->
      let bnd := row_bound l (q_cell q) e Ls Ds Lt Dt X (n_scale input * (1#2)) row t in
      (0 <= nth t (nth row rep []) 0 <= bnd * bnd)%Q.
Proof.
  intros fn dt q l b T data input qi e Ls Ds Lt Dt X Sh GD IG IS EQ FO LS LT TU RP.
  destruct (C93_report fn dt q l b T data input qi e Sh GD IG EQ FO) as (eng & o & rec & rep & FM & RUN & DB & L15 & REP).
  exists rep. split; [exact DB|]. intros row t Hr Ht. cbv zeta.
  destruct (C93_intermediate fn dt q l b T data input qi e Ls Ds Lt Dt Sh GD IG IS EQ FO LS LT) as (eng' & FM' & INT).
  assert (eng' = eng) by congruence. subst eng'.
  pose proof (ng_pos _ _ IG) as PI.
  specialize (INT T X (n_scale input * (1#2))%Q data (calib_codes input data) (ls_T _ _ _ _ Sh) (ls_data _ _ _ _ Sh) ltac:(lra)).
  destruct INT as (o' & rec' & RUN' & INT).
  { unfold calib_codes. assert (F : forall k, (forall xs, In xs k -> In xs data) -> Forall2 (stands_for input (length (kl_K l)) T X (n_scale input * (1#2))) (map (map (map (quant1 (n_dtype input) (zp0 input) (n_scale input)))) k) k).
    { induction k as [|xs k IH]; intros HK; [constructor|]. cbn [map]. constructor; [|apply IH; intros; apply HK; now right].
      assert (Hx : In xs data) by (apply HK; now left). pose proof (ls_time _ _ _ _ Sh xs Hx) as LX.
      split; [exact LX|]. split; [now rewrite map_length|]. intros u Hu.
      assert (HI : In (nth u xs []) xs) by (apply nth_In; lia). destruct (RP xs _ Hx HI) as (R1 & R2).
      rewrite (nth_map_in (map _) xs u []) by lia. pose proof (ls_rows _ _ _ _ Sh xs _ Hx HI) as LRW.
      split; [exact LRW|]. split; [now rewrite map_length|]. split; [exact R1|]. split.
      - intros v Hv. apply in_map_iff in Hv as (x & <- & _). rewrite (ng_dtype _ _ IG). unfold short in IS. unfold in_dtype, quant1.
        pose proof (q_round_range qi (1#2)) as QR. unfold in_dt in QR. apply QR. unfold fits_i32. assert (2 ^ 16 = 65536) by reflexivity. assert (2 ^ 31 = 2147483648) by reflexivity. lia.
      - intros k0 Hk. rewrite (nth_map_in _ (nth u xs []) k0 0%Q) by lia. apply R2, nth_In. lia. }
    apply F. auto. }
  { intros xs Hx. apply C62_calibration_covered; assumption. }
  assert (rec' = rec) by congruence. subst rec'.
  destruct (REP row t ltac:(lia) Ht) as (_ & RE). rewrite RE.
  apply msd_bound; [|apply (ls_units _ _ _ _ Sh)|].
  { pose proof (ls_data _ _ _ _ Sh). destruct data; [congruence|cbn; lia]. }
  intros i j Hi Hj. destruct (INT row t i j Hr Ht Hi Hj) as (D & C). cbv zeta in D, C.
  assert (NG : exists qr, short qr /\ node_good (row_node e row) qr).
  { destruct (export_ok fn dt q l b T data input Sh GD) as (e' & E' & EX). assert (e' = e) by congruence. subst e'. clear E'.
    pose proof (gl_r _ _ GD) as SR. pose proof (gl_c _ _ GD) as SC. pose proof (gl_h _ _ GD) as SHH.
    unfold row_node. destruct (Nat.ltb_spec row 8).
    - exists (q_rec_add q). split; [exact SR|]. replace (13 + row)%nat with (17 + (row - 4))%nat by lia. apply (le_pre _ _ _ _ _ _ _ _ EX (row - 4)%nat). lia.
    - destruct (Nat.ltb_spec row 12).
      + exists (q_act q). split; [rewrite (gl_act _ _ GD); exact SR|]. apply (le_gate _ _ _ _ _ _ _ _ EX (row - 8)%nat). lia.
      + destruct (row =? 12)%nat; [|destruct (row =? 13)%nat].
        * exists (q_cell q). split; [exact SC|]. apply (le_cell _ _ _ _ _ _ _ _ EX).
        * exists (q_cell q). split; [exact SC|]. apply (le_act _ _ _ _ _ _ _ _ EX).
        * exists (q_hidden q). split; [exact SHH|]. apply (le_hidden _ _ _ _ _ _ _ _ EX). }
  destruct NG as (qr & SQR & NGR). rewrite (ng_dtype _ _ NGR) in D. rewrite (deq_val _ qr _ SQR NGR D).
  unfold val in C. rewrite Qmult_comm. exact C.
Qed.

(** The bias-add rows.  The float side of row g is h U + (x K + b); it is x K + b at the first step, when h = 0 ... *)
Theorem C93_bias_first_step : forall fn l b T data xs g j, lstm_shaped l b T data -> In xs data -> (g < 4)%nat -> (j < kl_units l)%nat ->
  (float_value fn l b xs g 0 j == bias_at l b xs 0 g j)%Q.
Proof.
  intros fn l b T data xs g j Sh Hx Hg Hj. unfold float_value. destruct (Nat.ltb_spec g 4); [|lia].
  unfold pre_at, pre, bias_at. cbv zeta. cbn [firstn state fold_left st_h].
  assert (Z0 : (sumQ_upto (kl_units l) (fun k => (0 * entry (kl_U l) (kl_units l) g k j)%Q) == 0)%Q).
  { unfold sumQ_upto, sum_upto. induction (seq 0 (kl_units l)) as [|k u IH]; [reflexivity|]. cbn [map fold_right]. rewrite IH. ring. }
  unfold state. cbn [fold_left st_h]. rewrite Z0. rewrite Qplus_0_l. reflexivity.
Qed.

(** ... but from the second step on the bias-add rows measure the recurrent contribution: for a layer whose bias-add codes are within
    1/10000 (mean square) of x K + b at the second step, the report says 3/100. *)
Theorem C93_bias_rows_refuted : exists fn l b T data input e rep eng o rec,
  lstm_shaped l b T data /\ klstm_quantize_debug true fn ldt_default l input T data = Ok (e, Some rep) /\
  lstm_from_model (le_ins e) (le_out e) (kl_seq l) = Ok eng /\ lstm_infer eng T (calib_codes input data) = Ok (o, rec) /\
  forall g, (g < 4)%nat ->
    (3#100 < nth 1 (nth g rep []) 0)%Q /\
    (msd (length data) (kl_units l)
       (fun i j => dequant1 (zp0 (row_node e g)) (n_scale (row_node e g)) (nth j (engine_value eng (calib_codes input data) rec g 1 i) 0%Z))
       (fun i j => bias_at l b (nth i data []) 1 g j) <= 1#10000)%Q.
Proof.
  destruct (C93_report hfn ldt_default ex_q (ex_l true) ex_b 2 ex_data ex_in q_i8 ex_e (ex_shaped true) default_good (proj1 ex_in_good) ex_quantized ex_file_ok)
    as (eng & o & rec & rep & EG & EI & E & _ & REP).
  assert (EI' : lstm_infer eng 2 [[[100]; [-50]]; [[50]; [-100]]] = Ok (o, rec)).
  { assert (EC : calib_codes ex_in ex_data = [[[100]; [-50]]; [[50]; [-100]]]) by (vm_compute; reflexivity). rewrite <- EC. exact EI. }
  assert (X : match lstm_from_model (le_ins ex_e) (le_out ex_e) true with Ok eng =>
     match lstm_infer eng 2 [[[100]; [-50]]; [[50]; [-100]]] with Ok (o, rec) =>
       forallb (fun g =>
         let q := map (fun i => map (fun j => Qred (dequant1 (zp0 (row_node ex_e g)) (n_scale (row_node ex_e g)) (nth j (engine_value eng [[[100]; [-50]]; [[50]; [-100]]] rec g 1 i) 0%Z))) [0; 1]%nat) [0; 1]%nat in
         let d f := fold_right Qplus 0%Q (map (fun i => fold_right Qplus 0%Q (map (fun j => let v := Qred (nth j (nth i q []) 0 - f i j)%Q in (v * v)%Q) [0; 1]%nat)) [0; 1]%nat) in
         negb (Qle_bool (d (fun i j => Qred (pre_at hfn (ex_l true) ex_b (nth i ex_data []) 1 g j)) / 4)%Q (3#100)) &&
         Qle_bool (d (fun i j => Qred (bias_at (ex_l true) ex_b (nth i ex_data []) 1 g j)) / 4)%Q (1#10000)) [0; 1; 2; 3]%nat
     | _ => false end | _ => false end = true) by (vm_compute; reflexivity).
  change (kl_seq (ex_l true)) with true in EG. rewrite EG, EI' in X. rewrite forallb_forall in X.
  assert (MS : forall f g : nat -> nat -> Q, (msd 2 2 (fun i j => f i j) g ==
     fold_right Qplus 0 (map (fun i => fold_right Qplus 0 (map (fun j => let v := Qred (nth j (nth i (map (fun i => map (fun j => Qred (f i j)) [0; 1]%nat) [0; 1]%nat) []) 0 - Qred (g i j)) in v * v) [0; 1]%nat)) [0; 1]%nat) / 4)%Q).
  { intros f g. unfold msd, sumQ_upto, sum_upto. cbn [seq map fold_right nth]. cbv zeta. rewrite !Qred_correct.
    change (inject_Z (Z.of_nat 2) * inject_Z (Z.of_nat 2))%Q with 4%Q. field. }
  exists hfn, (ex_l true), ex_b, 2%nat, ex_data, ex_in, ex_e, rep, eng, o, rec.
  split; [apply ex_shaped|]. split; [exact E|]. split; [exact EG|]. split; [exact EI|].
  intros g Hg. destruct (REP g 1%nat ltac:(lia) ltac:(lia)) as (_ & RE).
  assert (EC : calib_codes ex_in ex_data = [[[100]; [-50]]; [[50]; [-100]]]) by (vm_compute; reflexivity).
  rewrite EC in *. change (length ex_data) with 2%nat in *. change (kl_units (ex_l true)) with 2%nat in *.
  assert (Hi : In g [0; 1; 2; 3]%nat) by (cbn; lia). specialize (X g Hi). clear Hi. cbv zeta in X. apply andb_prop in X as [X1 X2]. apply negb_true_iff in X1. split.
  - rewrite RE. rewrite MS. apply Qnot_le_lt. intros H. apply Qle_bool_iff in H.
    assert (FV : forall i j, float_value hfn (ex_l true) ex_b (nth i ex_data []) g 1 j = pre_at hfn (ex_l true) ex_b (nth i ex_data []) 1 g j).
    { intros i j. unfold float_value. destruct (Nat.ltb_spec g 4); [reflexivity|lia]. }
    cbn [map] in H, X1. rewrite !FV in H. rewrite H in X1. discriminate X1.
  - rewrite MS. apply qle_dec_true. exact X2.
Qed.

(** An input node without a zero point stops debug mode (the quantized input cannot be computed), after the layer was quantized. *)
Theorem C93_no_zero_point : forall fn dt l input T data e, klstm_quantize fn dt l input T data = Ok e -> n_zp (nth 0 (le_ins e) dnode) = None ->
  klstm_quantize_debug true fn dt l input T data = Err ETypeError.
Proof. intros fn dt l input T data e E Z. unfold klstm_quantize_debug. rewrite E. cbn [rbind]. unfold noise_report, input_codes. cbv zeta. rewrite Z. reflexivity. Qed.

(** The hypotheses hold for the example layer of C63. *)
Example ex_represents : forall xs r, In xs ex_data -> In r xs -> (abssum r <= 1)%Q /\ forall v, In v r -> represents ex_in v.
Proof.
  assert (A : forallb (fun xs => forallb (fun r => Qle_bool (abssum r) 1 && forallb (fun v =>
      Qle_bool (Qabs (val ex_in (quant1 (n_dtype ex_in) (zp0 ex_in) (n_scale ex_in) v) - v)) (n_scale ex_in * (1#2))) r) xs) ex_data = true) by (vm_compute; reflexivity).
  rewrite forallb_forall in A. intros xs r Hx Hr. specialize (A xs Hx). rewrite forallb_forall in A. specialize (A r Hr).
  apply andb_prop in A as [A1 A2]. split; [apply qle_dec_true, A1|]. intros v Hv. rewrite forallb_forall in A2. apply qle_dec_true, A2, Hv.
Qed.
Example ex_bounded : exists rep, klstm_quantize_debug true hfn ldt_default (ex_l true) ex_in 2 ex_data = Ok (ex_e, Some rep) /\
  forall row t, (4 <= row < 15)%nat -> (t < 2)%nat ->
    let bnd := row_bound (ex_l true) q_i8 ex_e (1#4) 0 1 0 1 (n_scale ex_in * (1#2)) row t in
    (0 <= nth t (nth row rep []) 0 <= bnd * bnd)%Q.
Proof.
  assert (U : (2 <= kl_units (ex_l true))%nat) by (cbn; lia).
  exact (C93_bounded hfn ldt_default ex_q (ex_l true) ex_b 2 ex_data ex_in q_i8 ex_e (1#4) 0 1 0 1 (ex_shaped true) default_good (proj1 ex_in_good) (proj2 ex_in_good)
    ex_quantized ex_file_ok hsig_lip htanh_lip U ex_represents).
Qed.
