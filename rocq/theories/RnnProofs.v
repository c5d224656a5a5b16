(** Proofs for property C85: one LSTM layer, stacks of them, dense layers behind them. *)
From Verif Require Import Base BaseProofs DtypeModel DtypeProofs QuantModel QuantProofs LutModel LutProofs FcModel FcProofs FcLayer
  EngineModel EngineProofs DistModel DistProofs BuildModel PipeModel LstmModel KLstmModel PropCore PropFc PropEngine PropDist PropNodeLut PropRelu PipeSpec PipeProofs
  LstmProofs PropLstm KLstmSpec KLstmProofs KLstmError PropKLstm PropPipe RPipeSpec RPipeProofs PropRPipe CertSpec PropCert RnnModel RnnSpec.
From Verif Require NodeModel.
From Coq Require Import Lqa Qminmax.
Open Scope Z_scope.
Open Scope list_scope.

(** ** Dropout *)
Lemma skip_dropped fn c : forall ls inp data, rnn_layers fn c ls inp data = rnn_layers fn c (filter kept ls) inp data.
Proof.
  induction ls as [|r ls IH]; intros inp data; [reflexivity|]. destruct r as [l|[l|]]; cbn [filter kept rnn_layers].
  - destruct (rnn_lstm fn l inp data) as [[[op out] d]|]; [|reflexivity]. cbn [rbind]. now rewrite IH.
  - destruct (rnn_dense c l inp data) as [[[ops out] d]|]; [|reflexivity]. cbn [rbind]. now rewrite IH.
  - apply IH.
Qed.

(** ** One LSTM layer *)
Definition node_of (n : pnode) (q : gdtype) : node := mknode (pn_scale n) (Some (pn_zp n)) q [] None.
Lemma as_node_ok n q : node_ok n q -> as_node n = Ok (node_of n q).
Proof. intros H. unfold as_node. rewrite (no_dtype _ _ H). reflexivity. Qed.
Lemma node_of_good n q : node_ok n q -> node_good (node_of n q) q.
Proof. intros [A B C D]. constructor; [reflexivity|exact C|exists (pn_zp n); split; [reflexivity|exact D]]. Qed.
Lemma layer_lstm_shaped n l T data : lstm_layer n l -> (0 < T)%nat -> data <> [] -> sequences n T data -> lstm_shaped l (bias_of l) T data.
Proof.
  intros [A B C (b & D1 & D2) E F G] HT ND SQ. unfold bias_of. rewrite D1. constructor; try assumption.
  - intros Z. rewrite Z in C. cbn in C. lia.
  - intros s Hs. apply (SQ s Hs).
  - intros s r Hs Hr. rewrite C. apply (SQ s Hs), Hr.
Qed.
Lemma last_map_seq {A} (f : nat -> A) n d : (0 < n)%nat -> last (map f (seq 0 n)) d = f (n - 1)%nat.
Proof.
  intros H. destruct n as [|n]; [lia|]. rewrite seq_S, map_app. cbn [map Nat.add]. rewrite last_last. f_equal. lia.
Qed.
Lemma lstm_seq_length fn l xs : length (lstm_seq fn l xs) = length xs.
Proof. unfold lstm_seq. now rewrite map_length, seq_length. Qed.
Lemma lstm_seq_nth fn l xs t : (t < length xs)%nat -> nth t (lstm_seq fn l xs) [] = map (hidden_at fn l (bias_of l) xs t) (seq 0 (kl_units l)).
Proof. intros H. unfold lstm_seq. rewrite (PipeProofs.nth_map_seq (fun t : nat => map (hidden_at fn l (bias_of l) xs t) (seq 0 (kl_units l)))) by exact H. reflexivity. Qed.
Lemma lstm_seq_last fn l xs : (0 < length xs)%nat -> last (lstm_seq fn l xs) [] = nth (length xs - 1) (lstm_seq fn l xs) [].
Proof. intros H. rewrite lstm_seq_nth by lia. unfold lstm_seq. now rewrite last_map_seq. Qed.
Lemma seq_sequences fn l T data n : sequences n T data -> sequences (kl_units l) T (map (lstm_seq fn l) data).
Proof.
  intros H ys Hy. apply in_map_iff in Hy as (xs & <- & Hx). destruct (H xs Hx) as [L _]. split; [now rewrite lstm_seq_length|].
  intros x Hx'. unfold lstm_seq in Hx'. apply in_map_iff in Hx' as (t & <- & _). now rewrite map_length, seq_length.
Qed.
(** data handed to the next layer *)
Definition seq_data (fn : lfns) (l : klstm) (data : list (list (list Q))) : fdata :=
  if kl_seq l then D3 (map (lstm_seq fn l) data) else D2 (map (fun xs => last (lstm_seq fn l xs) []) data).
Lemma lstm_node fn l n inp qi T data : lstm_layer n l -> node_ok inp qi -> (0 < T)%nat -> data <> [] -> sequences n T data ->
  exists e, klstm_quantize fn ldt_default l (node_of inp qi) T data = Ok e /\
    rnn_lstm fn l inp (D3 data) = Ok (mkjop (str "LSTM") (str "lstm_quant " ++ kl_name l) (RL (le_ins e) (le_out e) (kl_seq l)),
      as_pnode (le_out e) [kl_units l], seq_data fn l data) /\
    node_good (le_out e) q_i8 /\ node_ok (as_pnode (le_out e) [kl_units l]) q_i8.
Proof.
  intros LL NI HT ND SQ. pose proof (layer_lstm_shaped n l T data LL HT ND SQ) as Sh.
  destruct (export_ok fn ldt_default ex_q l (bias_of l) T data (node_of inp qi) Sh PropKLstm.default_good) as (e & E & EX).
  exists e. split; [exact E|].
  pose proof (proj1 (le_hidden _ _ _ _ _ _ _ _ EX)) as GH. cbn [ex_q q_hidden] in GH.
  assert (ED : le_data e = seq_data fn l data).
  { rewrite (C61_handed_on _ _ _ _ _ _ _ _ Sh E). unfold seq_data. destruct (kl_seq l); f_equal; apply map_ext_in; intros xs Hx; destruct (SQ xs Hx) as [L _].
    - unfold lstm_seq. now rewrite L.
    - unfold lstm_seq. rewrite L. rewrite last_map_seq by exact HT. reflexivity. }
  split; [|split; [exact GH|]].
  - unfold rnn_lstm. rewrite (as_node_ok _ _ NI). cbn [rbind].
    assert (steps data = T) as ->.
    { unfold steps. destruct data as [|xs data]; [congruence|]. apply (SQ xs). now left. }
    rewrite E. cbn [rbind]. now rewrite ED.
  - destruct GH as [G1 G2 (z & G3 & G4)]. constructor.
    + cbn [as_pnode pn_dtype]. rewrite G1. reflexivity.
    + apply short_narrow, ex_in_good.
    + exact G2.
    + cbn [as_pnode pn_zp]. unfold zp0. rewrite G3. exact G4.
Qed.
Lemma build_seq a b c d e f g h i sq eng : lstm_build a b c d e f g h i sq = Ok eng -> l_seq eng = sq.
Proof.
  unfold lstm_build. intros E.
  repeat match type of E with
    | (do _ <- ?x; _) = _ => destruct x; [|discriminate E]; cbn [rbind] in E
    | (let _ := _ in _) = _ => cbv zeta in E
    | (if ?x then _ else _) = _ => destruct x; try discriminate E
    | (match ?x with _ => _ end) = _ => destruct x; try discriminate E
    end.
  all: match type of E with Ok ?m = Ok _ => assert (X : eng = m) by congruence; rewrite X; reflexivity end.
Qed.
Lemma file_ok_data l q ins out d d' : lstm_file_ok l q (mkle ins out d) -> lstm_file_ok l q (mkle ins out d').
Proof. intros [A B C D E F G]. constructor; assumption. Qed.
Lemma nth_near out q e row (h : nat -> Q) units :
  length row = units -> (forall j, (j < units)%nat -> in_dtype q (nth j row 0) /\ (Qabs (pn_scale out * inject_Z (nth j row 0%Z - pn_zp out) - h j) <= e)%Q) ->
  near out q e (map h (seq 0 units)) row.
Proof.
  intros L H. constructor.
  - now rewrite map_length, seq_length.
  - intros v Hv. apply In_nth with (d := 0) in Hv as (j & Hj & <-). apply H. lia.
  - rewrite map_length, seq_length. intros j Hj. rewrite (PipeProofs.nth_map_seq (fun a : nat => h a)) by exact Hj. now apply H.
Qed.
Lemma F2_of_nth {A B} (P : A -> B -> Prop) (a : list A) (b : list B) da db : length a = length b ->
  (forall i, (i < length a)%nat -> P (nth i a da) (nth i b db)) -> Forall2 P a b.
Proof.
  revert b. induction a as [|x a IH]; intros [|y b] L H; try discriminate; constructor.
  - exact (H 0%nat ltac:(cbn; lia)).
  - apply IH; [cbn in L; lia|]. intros i Hi. exact (H (S i) ltac:(cbn; lia)).
Qed.
(** what the engine returns for a stack of LSTM layers, step by step, or the last step *)
Definition seq_result (out : pnode) (err : nat -> Q) (F : list (list Q) -> list (list Q)) (sq : bool) (T : nat) (batch : list (list (list Q))) (v : rval) : Prop :=
  if sq then exists m, v = RI m /\ Forall2 (fun xs rows => length rows = T /\ forall t, (t < T)%nat -> near out q_i8 (err t) (nth t (F xs) []) (nth t rows [])) batch m
  else exists m, v = R2 (VI m) /\ Forall2 (fun xs row => near out q_i8 (err (T - 1)%nat) (last (F xs) []) row) batch m.
Lemma stands_steps input nf T X ex codes batch : batch <> [] -> Forall2 (stands_for input nf T X ex) codes batch -> steps codes = T.
Proof.
  intros N F. destruct F as [|c b codes batch H _]; [congruence|]. destruct H as (_ & L & _). exact L.
Qed.
Lemma lstm_runs fn l n inp qi T data e Ls Ds Lt Dt name :
  lstm_layer n l -> node_ok inp qi -> short qi -> (0 < T)%nat -> data <> [] -> sequences n T data ->
  klstm_quantize fn ldt_default l (node_of inp qi) T data = Ok e -> lstm_file_ok l int32 (mkle (le_ins e) (le_out e) (D2 [])) ->
  bounded_lip (fn_sig fn) Ls Ds -> bounded_lip (fn_tanh fn) Lt Dt ->
  exists ly, build_layer rnn_builders (mkjop (str "LSTM") name (RL (le_ins e) (le_out e) (kl_seq l))) = Ok ly /\
  forall T' X ex batch codes, (0 < T')%nat -> batch <> [] -> (0 <= ex)%Q ->
    Forall2 (stands_for (node_of inp qi) n T' X ex) codes batch -> (forall xs, In xs batch -> lstm_covered fn l (bias_of l) T data xs) ->
    exists v, ly (RI codes) = Ok v /\
      seq_result (as_pnode (le_out e) [kl_units l]) (b_out l int8 (mkle (le_ins e) (le_out e) (D2 [])) Ls Ds Lt Dt X ex) (lstm_seq fn l) (kl_seq l) T' batch v.
Proof.
  intros LL NI SI HT ND SQ E FO LS LT. pose proof (layer_lstm_shaped n l T data LL HT ND SQ) as Sh.
  assert (FO' : lstm_file_ok l (q_bias ex_q) e) by (destruct e as [ins out d]; exact (file_ok_data _ _ _ _ _ _ FO)).
  destruct (C63_error fn ldt_default ex_q l (bias_of l) T data (node_of inp qi) qi e Ls Ds Lt Dt Sh PropKLstm.default_good (node_of_good _ _ NI) SI E FO' LS LT) as (eng & BM & H).
  assert (SQE : l_seq eng = kl_seq l).
  { unfold lstm_from_model in BM. destruct (length (le_ins e) <? 22)%nat; [discriminate BM|]. destruct (length (le_ins e) <? 32)%nat; [discriminate BM|]. cbv zeta in BM. exact (build_seq _ _ _ _ _ _ _ _ _ _ _ BM). }
  eexists. split.
  { unfold build_layer. cbn [jo_type jo_body]. assert (build_layer_kind (str "LSTM") = Ok KLSTM) as -> by (vm_compute; reflexivity).
    cbn [rbind rnn_builders b_tflite]. unfold ie_lstm. rewrite BM. cbn [rbind]. reflexivity. }
  intros T' X ex batch codes HT' NB E0 SF COV. cbv beta iota.
  rewrite (ll_feat _ _ LL) in H.
  destruct (H T' X ex batch codes HT' NB E0 SF COV) as (o & rec & EI & OR1 & OR2).
  rewrite (stands_steps _ _ _ _ _ _ _ NB SF). rewrite EI. cbn [rbind fst].
  pose proof (infer_sizes _ _ _ _ _ EI) as (Z1 & Z2 & Z3).
  apply infer_inv in EI as (R & NR & EO). apply (infer_rows eng T' codes rec Z2 Z3) in R as (LR & LS' & _).
  pose proof (F2_length _ _ _ SF) as LC.
  assert (LX : forall i, (i < length batch)%nat -> length (nth i batch []) = T').
  { intros i Hi. assert (X1 : In (nth i batch []) batch) by (apply nth_In; exact Hi).
    revert X1. generalize (nth i batch []) as y. clear -SF. intros y X1. induction SF as [|c b cs bs (L1 & _) _ IH]; [destruct X1|]. destruct X1 as [<-|X1]; [exact L1|exact (IH X1)]. }
  assert (ROW : forall i t row, (i < length batch)%nat -> (t < T')%nat -> out_row o T' i t = Some row ->
     near (as_pnode (le_out e) [kl_units l]) q_i8 (b_out l int8 (mkle (le_ins e) (le_out e) (D2 [])) Ls Ds Lt Dt X ex t) (nth t (lstm_seq fn l (nth i batch [])) []) row).
  { intros i t row Hi Ht ER. rewrite lstm_seq_nth by (rewrite LX; assumption). destruct (OR2 i t row Hi Ht ER) as [L1 L2].
    apply nth_near; [exact L1|]. intros j Hj. destruct (L2 j Hj) as [L3 L4]. split; [exact L3|]. destruct e as [ins out d]. exact L4. }
  rewrite SQE in EO. eexists. split; [reflexivity|]. unfold seq_result. destruct (kl_seq l) eqn:KS.
  - subst o. eexists. split; [reflexivity|].
    apply F2_of_nth with (da := []) (db := []); [rewrite map_length, seq_length; lia|].
    intros i Hi. set (G := fun b => map (fun step : list (list Z) => nth b step []) (map (map s_hidden) rec)).
    rewrite (PipeProofs.nth_map_seq (fun a : nat => G a)) by lia. split; [unfold G; rewrite !map_length; exact LR|].
    intros t Ht. apply ROW; [exact Hi|exact Ht|]. cbn [out_row]. fold G. rewrite (PipeProofs.nth_map_seq (fun a : nat => G a)) by lia.
    apply nth_error_nth'. unfold G. rewrite !map_length. lia.
  - subst o. eexists. split; [reflexivity|].
    assert (LL2 : length (last (map (map s_hidden) rec) []) = length codes).
    { destruct (exists_last NR) as (u & x & EU). rewrite EU, map_app. cbn [map]. rewrite last_last, map_length. apply LS'. rewrite EU. apply in_or_app. right. now left. }
    apply F2_of_nth with (da := []) (db := []); [lia|].
    intros i Hi. rewrite lstm_seq_last by (rewrite LX by exact Hi; exact HT'). rewrite (LX i Hi). apply ROW; [exact Hi|lia|]. cbn [out_row].
    rewrite Nat.eqb_refl. apply nth_error_nth'. lia.
Qed.

(** ** Stacks *)
Lemma hidden_bound fn l b xs t j Ls Ds Lt Dt : bounded_lip (fn_sig fn) Ls Ds -> bounded_lip (fn_tanh fn) Lt Dt -> (t < length xs)%nat ->
  (Qabs (hidden_at fn l b xs t j) <= 1)%Q.
Proof.
  intros (_ & _ & BS & _) (_ & _ & BT & _) Ht. unfold hidden_at. rewrite (state_snoc fn l b xs t Ht). cbn [lnext st_h].
  rewrite Qabs_Qmult. match goal with |- (Qabs (gate_fn fn 3 ?a) * Qabs (fn_tanh fn ?c) <= 1)%Q =>
    pose proof (BS a) as A1; pose proof (BT c) as A2; pose proof (Qabs_nonneg (fn_tanh fn c)) as A3; change (gate_fn fn 3 a) with (fn_sig fn a) in *;
    pose proof (Qabs_nonneg (fn_sig fn a)) as A4 end.
  eapply Qle_trans; [apply Qmult_le_compat_r; [exact A1|exact A3]|]. lra.
Qed.
Lemma abssum_le (h : nat -> Q) n : (forall j, (j < n)%nat -> (Qabs (h j) <= 1)%Q) -> (abssum (map h (seq 0 n)) <= nq n)%Q.
Proof.
  assert (G : forall n k, (forall j, (k <= j < k + n)%nat -> (Qabs (h j) <= 1)%Q) -> (abssum (map h (seq k n)) <= nq n)%Q).
  { clear n. induction n as [|n IH]; intros k H; [discriminate|]. cbn [seq map]. unfold abssum in *. cbn [map sumQ fold_right].
    fold (sumQ (map Qabs (map h (seq (S k) n)))). specialize (IH (S k) ltac:(intros; apply H; lia)). pose proof (H k ltac:(lia)).
    unfold nq in *. rewrite Nat2Z.inj_succ. unfold Z.succ. rewrite inject_Z_plus. change (inject_Z 1) with 1%Q. lra. }
  intros H. apply G. intros j Hj. apply H. lia.
Qed.
Lemma result_stands fn l out err T batch m Ls Ds Lt Dt n X ex input codes :
  bounded_lip (fn_sig fn) Ls Ds -> bounded_lip (fn_tanh fn) Lt Dt ->
  Forall2 (stands_for input n T X ex) codes batch ->
  Forall2 (fun xs rows => length rows = T /\ forall t, (t < T)%nat -> near out q_i8 (err t) (nth t (lstm_seq fn l xs) []) (nth t rows [])) batch m ->
  Forall2 (stands_for (node_of out q_i8) (kl_units l) T (nq (kl_units l)) (maxQ (map err (seq 0 T)))) m (map (lstm_seq fn l) batch).
Proof.
  intros BS BT SF. revert m. induction SF as [|c xs codes batch (L1 & _) _ IH]; intros m H.
  - inversion H; subst. constructor.
  - inversion H as [|? rows ? m' (LR & HR) H2]; subst. cbn [map]. constructor; [|apply IH; exact H2].
    split; [apply lstm_seq_length|]. split; [exact LR|].
    intros t Ht. specialize (HR t Ht). destruct HR as [N1 N2 N3]. rewrite lstm_seq_nth in * by exact Ht.
    rewrite map_length, seq_length in *. split; [reflexivity|]. split; [exact N1|]. split.
    { apply abssum_le. intros j Hj. eapply hidden_bound; [exact BS|exact BT|exact Ht]. }
    split; [exact N2|]. intros k Hk. eapply Qle_trans; [apply (N3 k Hk)|]. apply maxQ_seq, Ht.
Qed.
Definition stack_data (fn : lfns) (sq : bool) (ls : list klstm) (data : list (list (list Q))) : fdata :=
  if sq then D3 (map (stack_seq fn ls) data) else D2 (map (fun xs => last (stack_seq fn ls xs) []) data).
Definition opnode (op : jop rbody) (l : klstm) : Prop := exists ins out, jo_body op = RL ins out (kl_seq l).
Lemma stack_ok fn c sq Ls Ds Lt Dt : bounded_lip (fn_sig fn) Ls Ds -> bounded_lip (fn_tanh fn) Lt Dt ->
  forall lst n inp qi T data, lstm_stack sq n lst -> node_ok inp qi -> short qi -> (0 < T)%nat -> data <> [] -> sequences n T data ->
  exists lops out, length lops = length lst /\ node_ok out q_i8 /\ Forall2 (fun l op => opnode op l) lst lops /\
    (forall rest, rnn_layers fn c (map RLstm lst ++ rest) inp (D3 data) =
       do y <- rnn_layers fn c rest out (stack_data fn sq lst data); Ok (lops ++ fst y, snd y)) /\
    (stack_file_ok lst lops -> exists lys, mapM (build_layer rnn_builders) lops = Ok lys /\
      forall T' X ex batch codes, (0 < T')%nat -> batch <> [] -> (0 <= ex)%Q ->
        Forall2 (stands_for (node_of inp qi) n T' X ex) codes batch -> (forall xs, In xs batch -> stack_covered fn T lst data xs) ->
        exists tr v, runs lys (RI codes) tr v /\
          seq_result out (stack_err Ls Ds Lt Dt lst lops X ex T') (stack_seq fn lst) sq T' batch v).
Proof.
  intros BS BT. induction lst as [|l lst IH]; intros n inp qi T data ST NI SI HT ND SQ; [destruct ST|].
  assert (LL : lstm_layer n l) by (destruct lst; apply ST).
  destruct (lstm_node fn l n inp qi T data LL NI HT ND SQ) as (e & EK & ER & GH & NO).
  set (op := mkjop (str "LSTM") (str "lstm_quant " ++ kl_name l) (RL (le_ins e) (le_out e) (kl_seq l))) in *.
  set (o1 := as_pnode (le_out e) [kl_units l]) in *.
  destruct lst as [|l2 lst].
  - destruct ST as [_ KS]. exists [op], o1. split; [reflexivity|]. split; [exact NO|].
    split; [constructor; [eexists _, _; reflexivity|constructor]|]. split.
    { intros rest. cbn [map app rnn_layers]. rewrite ER. cbn [rbind]. unfold seq_data, stack_data. rewrite KS. destruct sq; reflexivity. }
    intros FO. assert (FO1 : lstm_file_ok l int32 (op_lstm op)) by (inversion FO; assumption). cbn [op_lstm op jo_body] in FO1.
    destruct (lstm_runs fn l n inp qi T data e Ls Ds Lt Dt (str "lstm_quant " ++ kl_name l) LL NI SI HT ND SQ EK FO1 BS BT) as (ly & B1 & B2).
    exists [ly]. split; [cbn [mapM]; fold op in B1; rewrite B1; reflexivity|].
    intros T' X ex batch codes HT' NB E0 SF COV.
    destruct (B2 T' X ex batch codes HT' NB E0 SF (fun xs Hx => proj1 (COV xs Hx))) as (v & V1 & V2).
    exists [v], v. split; [econstructor; [exact V1|constructor]|]. rewrite KS in V2. exact V2.
  - destruct ST as (_ & KS & ST2).
    assert (SQ2 : sequences (kl_units l) T (map (lstm_seq fn l) data)) by (eapply seq_sequences; exact SQ).
    destruct (IH (kl_units l) o1 q_i8 T (map (lstm_seq fn l) data) ST2 NO (proj2 ex_in_good) HT ltac:(destruct data; [congruence|discriminate]) SQ2)
      as (lops & out & LO & NOUT & FO2 & RL1 & RUN).
    exists (op :: lops), out. split; [cbn [length]; now rewrite LO|]. split; [exact NOUT|].
    split; [constructor; [eexists _, _; reflexivity|exact FO2]|]. split.
    { intros rest. change (map RLstm (l :: l2 :: lst) ++ rest) with (RLstm l :: (map RLstm (l2 :: lst) ++ rest)).
      cbn [rnn_layers]. rewrite ER. cbn [rbind]. unfold seq_data. rewrite KS. rewrite RL1.
      assert (ESD : stack_data fn sq (l2 :: lst) (map (lstm_seq fn l) data) = stack_data fn sq (l :: l2 :: lst) data).
      { unfold stack_data. destruct sq; rewrite map_map; reflexivity. }
      rewrite ESD. destruct (rnn_layers fn c rest out (stack_data fn sq (l :: l2 :: lst) data)) as [[a b]|]; reflexivity. }
    intros FO. inversion FO as [|? ? ? ? FO1 FOR]; subst. cbn [op_lstm op jo_body] in FO1.
    destruct (RUN FOR) as (lys & M1 & M2).
    destruct (lstm_runs fn l n inp qi T data e Ls Ds Lt Dt (str "lstm_quant " ++ kl_name l) LL NI SI HT ND SQ EK FO1 BS BT) as (ly & B1 & B2).
    exists (ly :: lys). split; [cbn [mapM]; fold op in B1; rewrite B1; cbn [rbind]; rewrite M1; reflexivity|].
    intros T' X ex batch codes HT' NB E0 SF COV.
    destruct (B2 T' X ex batch codes HT' NB E0 SF (fun xs Hx => proj1 (COV xs Hx))) as (v & V1 & V2).
    rewrite KS in V2. destruct V2 as (m & -> & V3).
    pose proof (result_stands fn l _ _ T' batch m Ls Ds Lt Dt n X ex _ codes BS BT SF V3) as SF2.
    destruct (M2 T' _ _ (map (lstm_seq fn l) batch) m HT' ltac:(destruct batch; [congruence|discriminate]) (maxQ_nonneg _) SF2) as (tr & v & R & RES).
    { intros ys Hy. apply in_map_iff in Hy as (xs & <- & Hx). exact (proj2 (COV xs Hx)). }
    exists (RI m :: tr), v. split; [econstructor; [exact V1|exact R]|].
    unfold seq_result in *. change (stack_err Ls Ds Lt Dt (l :: l2 :: lst) (op :: lops) X ex T') with
      (stack_err Ls Ds Lt Dt (l2 :: lst) lops (nq (kl_units l)) (maxQ (map (b_out l int8 (op_lstm op) Ls Ds Lt Dt X ex) (seq 0 T'))) T').
    destruct sq.
    + destruct RES as (m2 & EV & RES). exists m2. split; [exact EV|]. clear -RES. remember (map (lstm_seq fn l) batch) as bb eqn:EB. revert batch EB.
      induction RES as [|y r bb m2 H _ IH]; intros [|xs batch] EB; try discriminate EB; constructor.
      * cbn [map] in EB. assert (y = lstm_seq fn l xs) by congruence. subst. exact H.
      * apply IH. cbn [map] in EB. congruence.
    + destruct RES as (m2 & EV & RES). exists m2. split; [exact EV|]. clear -RES. remember (map (lstm_seq fn l) batch) as bb eqn:EB. revert batch EB.
      induction RES as [|y r bb m2 H _ IH]; intros [|xs batch] EB; try discriminate EB; constructor.
      * cbn [map] in EB. assert (y = lstm_seq fn l xs) by congruence. subst. exact H.
      * apply IH. cbn [map] in EB. congruence.
Qed.

(** ** Dense layers behind the LSTM layers *)
Lemma lift_layers fn c : forall ps inp rows,
  rnn_layers fn c (map RPlain ps) inp (D2 rows) = do x <- pipe_layers c ps inp rows; Ok (map lift_op (fst x), snd x).
Proof.
  induction ps as [|[l|] ps IH]; intros inp rows; [reflexivity| |apply IH].
  cbn [map rnn_layers pipe_layers]. unfold rnn_dense. cbv zeta.
  destruct (pipe_dense (layer_cfg c (kd_name l)) l inp rows) as [[[ops out] d]|]; [|reflexivity]. cbn [rbind]. rewrite IH.
  destruct (pipe_layers c ps out d) as [[ops2 out2]|]; [|reflexivity]. cbn [rbind fst snd]. now rewrite map_app.
Qed.
(** a layer of the two-axis engine inside the larger one *)
Definition lifts (ly : layer pval) (ly' : layer rval) : Prop := forall x y, ly x = Ok y -> ly' (R2 x) = Ok (R2 y).
Lemma build_lift op ly : build_layer ie_builders op = Ok ly -> exists ly', build_layer rnn_builders (lift_op op) = Ok ly' /\ lifts ly ly'.
Proof.
  unfold build_layer. cbn [lift_op jo_type jo_body]. destruct (build_layer_kind (jo_type op)) as [k|]; [|discriminate]. cbn [rbind].
  destruct k; cbn [ie_builders rnn_builders b_tflite]; intros E; try discriminate E.
  all: match type of E with ?f ?b = Ok _ => idtac end.
  all: try (rewrite E; cbn [rbind]; eexists; split; [reflexivity|]; intros x y H; cbn; rewrite H; reflexivity).
  - unfold ie_softmax in *. destruct (py_index (pb_in (jo_body op)) 0); [|discriminate E]. cbn [rbind] in *.
    eexists. split; [reflexivity|]. intros x y H. assert (EQ : ly = (fun v => Ok v)) by congruence. rewrite EQ in H.
    assert (x = y) by congruence. now subst.
Qed.
Lemma build_lifts : forall ops lys, mapM (build_layer ie_builders) ops = Ok lys ->
  exists lys', mapM (build_layer rnn_builders) (map lift_op ops) = Ok lys' /\ Forall2 lifts lys lys'.
Proof.
  induction ops as [|op ops IH]; intros lys H; cbn [mapM map] in *.
  - exists []. split; [reflexivity|]. assert (lys = []) by congruence. subst. constructor.
  - destruct (build_layer ie_builders op) as [ly|] eqn:B; [|discriminate H]. cbn [rbind] in H.
    destruct (mapM (build_layer ie_builders) ops) as [ls|] eqn:M; [|discriminate H]. cbn [rbind] in H. assert (lys = ly :: ls) by congruence. subst.
    destruct (build_lift op ly B) as (ly' & B' & L). destruct (IH ls eq_refl) as (ls' & M' & F).
    exists (ly' :: ls'). rewrite B'. cbn [rbind]. rewrite M'. cbn [rbind]. split; [reflexivity|]. constructor; assumption.
Qed.
Lemma lift_runs lys lys' : Forall2 lifts lys lys' -> forall x t y, runs lys x t y -> runs lys' (R2 x) (map R2 t) (R2 y).
Proof.
  induction 1 as [|ly ly' lys lys' L _ IH]; intros x t y R; inversion R; subst; cbn [map]; [constructor|].
  econstructor; [apply L; eassumption|]. apply IH. assumption.
Qed.
Lemma runs_app {V} (a b : list (layer V)) x t y s z : runs a x t y -> runs b y s z -> runs (a ++ b) x (t ++ s) z.
Proof. induction 1 as [x|l ls x y t w E _ IH]; intros H; [exact H|]. cbn [app]. econstructor; [exact E|apply IH, H]. Qed.

(** ** Loading *)
Lemma rnn_loads g0 rest lys i o : contains (chars_of "QUANT") (upper (jo_name g0)) = true -> mapM (build_layer rnn_builders) (g0 :: rest) = Ok lys ->
  rnn_load (mkjnet (str "tflite") (g0 :: rest) [Some i] [Some o]) = Ok (mkseq true (jn_scale i) (jn_zp i) lys []).
Proof.
  intros C M. unfold rnn_load, seq_init. cbn [jt_input jt_output jt_graph jt_engine].
  change (py_index [Some i] 0) with (Ok (Some i)). change (py_index [Some o] 0) with (Ok (Some o)). cbn [rbind].
  change (py_index (g0 :: rest) 0) with (Ok g0). cbn [rbind]. rewrite C.
  assert (get_engine rnn_builders (str "tflite") = Ok (build_layer rnn_builders)) as -> by reflexivity. cbn [rbind]. rewrite M. reflexivity.
Qed.
Definition quant_op (nd : pnode) : jop rbody := lift_op (mkjop (str "QUANTIZE") (str "QUANTIZE") (mkpb [] [nd])).
Definition deq_op (nd : pnode) : jop rbody := lift_op (mkjop (str "DEQUANTIZE") (str "DEQUANTIZE") (mkpb [nd] [])).
Lemma quant_loads nd q : node_ok nd q -> exists ly, build_layer rnn_builders (quant_op nd) = Ok ly /\
  forall m, ly (RF m) = Ok (RI (map (map (map (quant1 q (pn_zp nd) (pn_scale nd)))) m)).
Proof.
  intros N. eexists. split.
  - unfold build_layer, quant_op. cbn [lift_op jo_type jo_body].
    assert (build_layer_kind (str "QUANTIZE") = Ok KQuantize) as -> by (vm_compute; reflexivity).
    cbn [rbind rnn_builders b_tflite]. unfold ie_quantize. cbn [pb_out]. change (py_index [nd] 0) with (Ok nd). cbn [rbind].
    rewrite (no_dtype _ _ N). cbn [rbind]. reflexivity.
  - intros m. cbn [each_int samples_of]. 
    assert (E : mapM (fun v => Ok (VI (map (map (quant1 q (pn_zp nd) (pn_scale nd))) (asF v)))) (map VF m) = Ok (map (fun s => VI (map (map (quant1 q (pn_zp nd) (pn_scale nd))) s)) m)).
    { clear. induction m as [|s m IH]; [reflexivity|]. cbn [map mapM rbind asF]. rewrite IH. reflexivity. }
    rewrite E. cbn [rbind]. rewrite map_map. reflexivity.
Qed.
Lemma deq_loads nd q : node_ok nd q -> exists ly, build_layer rnn_builders (deq_op nd) = Ok ly /\
  (forall m, ly (RI m) = Ok (RF (map (map (map (dequant1 (pn_zp nd) (pn_scale nd)))) m))) /\
  (forall m, ly (R2 (VI m)) = Ok (R2 (VF (map (map (dequant1 (pn_zp nd) (pn_scale nd))) m)))).
Proof.
  intros N. eexists. split.
  - unfold build_layer, deq_op. cbn [lift_op jo_type jo_body].
    assert (build_layer_kind (str "DEQUANTIZE") = Ok KDequantize) as -> by (vm_compute; reflexivity).
    cbn [rbind rnn_builders b_tflite]. unfold ie_dequantize. cbn [pb_in]. change (py_index [nd] 0) with (Ok nd). cbn [rbind].
    rewrite (no_dtype _ _ N). cbn [rbind]. reflexivity.
  - split; [|intros m; reflexivity]. intros m. cbn [each_float samples_of].
    assert (E : mapM (fun v => Ok (VF (map (map (dequant1 (pn_zp nd) (pn_scale nd))) (asI v)))) (map VI m) = Ok (map (fun s => VF (map (map (dequant1 (pn_zp nd) (pn_scale nd))) s)) m)).
    { clear. induction m as [|s m IH]; [reflexivity|]. cbn [map mapM rbind asI]. rewrite IH. reflexivity. }
    rewrite E. cbn [rbind]. rewrite map_map. reflexivity.
Qed.
(** dequantized codes are as close as the codes *)
Lemma near_within nd q e x xq : node_ok nd q -> near nd q e x xq -> within e (map (dequant1 (pn_zp nd) (pn_scale nd)) xq) x.
Proof.
  intros NO [H1 H2 H3]. split; [now rewrite map_length|]. intros i Hi. set (h := dequant1 (pn_zp nd) (pn_scale nd)).
  rewrite (nth_indep (map h xq) 0%Q (h 0)) by (rewrite map_length, H1; exact Hi). rewrite map_nth. unfold h.
  pose proof (no_narrow _ _ NO) as (N1 & N2 & N3). pose proof (no_zp _ _ NO) as NZ.
  assert (IY : in_dtype q (nth i xq 0)) by (apply H2, nth_In; lia).
  rewrite (dequant1_nowrap q) by (try exact N1; try exact IY; unfold zp_nowrap, in_dtype, within_int32 in *; lia).
  rewrite (Qmult_comm (inject_Z _)). apply H3, Hi.
Qed.
(** the quantized batch stands for the batch *)
Lemma quant_stands nd q n T X ex batch : node_ok nd q -> sequences n T batch ->
  (forall xs x, In xs batch -> In x xs -> (abssum x <= X)%Q /\ (Qmax (pn_scale nd * (1#2)) (excess nd x) <= ex)%Q) ->
  Forall2 (stands_for (node_of nd q) n T X ex) (map (map (map (quant1 q (pn_zp nd) (pn_scale nd)))) batch) batch.
Proof.
  intros NO SQ H. induction batch as [|xs batch IH]; cbn [map]; constructor.
  - destruct (SQ xs ltac:(now left)) as [L LR]. split; [exact L|]. split; [now rewrite map_length|].
    intros t Ht. assert (IX : In (nth t xs []) xs) by (apply nth_In; lia). set (h := quant1 q (pn_zp nd) (pn_scale nd)).
    assert (EN : nth t (map (map h) xs) [] = map h (nth t xs [])) by (change [] with (map h []) at 1; apply map_nth).
    rewrite EN. destruct (H xs (nth t xs []) ltac:(now left) IX) as [HX HE].
    destruct (rinput_near nd q (nth t xs []) NO) as [N1 N2 N3]. fold h in N1, N2, N3. rewrite (LR _ IX) in *.
    split; [reflexivity|]. split; [exact N1|]. split; [exact HX|]. split; [exact N2|].
    intros k Hk. eapply Qle_trans; [apply (N3 k Hk)|exact HE].
  - apply IH; [intros ys Hy; apply SQ; now right|]. intros ys x Hy Hx. apply (H ys x); [now right|exact Hx].
Qed.
