(** C35: the best-first parameter equalizer. *)
From Verif Require Import Base BaseProofs DtypeModel QuantModel QuantProofs PropCore NodeModel EqModel PropNode PropEq BfsProofs.
From Coq Require Import Lqa.
Open Scope Z_scope.
Open Scope list_scope.

(** ** Specification *)
(** what the exported network shows of a node *)
Definition same_export (n n' : node) : Prop :=
  (n_scale n == n_scale n')%Q /\ n_zp n = n_zp n' /\ n_q n = n_q n' /\
  match n_tens n, n_tens n' with
  | None, None => True
  | Some t, Some t' => nd_shape (t_codes t) = nd_shape (t_codes t') /\
      forall i, valid_idx (nd_shape (t_codes t)) i = true -> nd_get (t_codes t) i = nd_get (t_codes t') i
  | _, _ => False
  end /\ option_map lut_json (n_lut n) = option_map lut_json (n_lut n').
(** the first [next] objects are the network's *)
Definition same_network (next : nat) (w w' : world) : Prop := forall j, (j < next)%nat -> same_export (w j) (w' j).
(** a loss that only depends on the exported network *)
Definition loss_of_network (next : nat) (cost : world -> Q) : Prop := forall w w', same_network next w w' -> (cost w == cost w')%Q.

(** a network at rest: what the quantizer builds and what the equalizer leaves behind.  [ls] are the layers
    (bias, kernel and input node of each). *)
Record settled (next : nat) (ls : list hook) (w : world) : Prop := {
  se_sound : sound ls w;
  se_ids : forall h, In h ls -> (h_bias h < next /\ h_kernel h < next /\ h_input h < next)%nat;
  se_step : forall j, (j < next)%nat -> in_step (w j);
  se_sync : forall j, (j < next)%nat -> lut_sync (w j);
  se_nolut : forall h, In h ls -> n_lut (w (h_bias h)) = None }.
(** the nodes to tune: distinct network nodes other than biases, with positive scales *)
Definition tunable (next : nat) (ls : list hook) (w : world) (ts : list nat) : Prop :=
  NoDup ts /\ (forall i, In i ts -> (i < next)%nat /\ not_bias ls i /\ (0 < n_scale (w i))%Q).

(** ** Proof *)
Section Loop.
Context (next : nat) (ls : list hook) (w0 : world) (ts : list nat) (cost : world -> Q) (f : nat).
Context (SE : settled next ls w0) (TU : tunable next ls w0 ts) (LO : loss_of_network next cost).
Let cs := seq next (length ts).

Let bias_dec j : not_bias ls j \/ exists h, In h ls /\ j = h_bias h.
Proof.
  unfold not_bias. clear. induction ls as [|h r IH]; [left; intros h []|].
  destruct (Nat.eq_dec j (h_bias h)) as [-> | N]; [right; exists h; split; [now left|reflexivity]|].
  destruct IH as [IH|(g & H & E)]; [left; intros g [<- |H]; auto|right; exists g; split; [now right|exact E]].
Qed.
Let ts_lt i : In i ts -> (i < next)%nat. Proof. intros H. now apply TU. Qed.
Let ts_nb i : In i ts -> not_bias ls i. Proof. intros H. now apply TU. Qed.
Let cs_ge i : In i cs -> (next <= i)%nat. Proof. unfold cs. rewrite in_seq. lia. Qed.
Let cs_nb i : In i cs -> not_bias ls i. Proof. intros H h Hh C. apply cs_ge in H. destruct (se_ids _ _ _ SE h Hh). lia. Qed.
Let cs_len : length cs = length ts. Proof. unfold cs. apply seq_length. Qed.
Let cs_nodup : NoDup cs. Proof. apply seq_NoDup. Qed.

(** the network with parameters [v] on the tuned nodes *)
Record canon (w : world) (v : list (Q * Z)) : Prop := {
  ca_sound : sound ls w;
  ca_skel : forall j, (j < next)%nat -> skel (w j) = skel (w0 j);
  ca_step : forall j, (j < next)%nat -> in_step (w j);
  ca_sync : forall j, (j < next)%nat -> not_bias ls j -> lut_sync (w j);
  ca_vec : vec w ts = v;
  ca_rest : forall j, (j < next)%nat -> ~ In j ts -> not_bias ls j -> w j = w0 j }.

Lemma vec_in w w' l i : vec w l = vec w' l -> In i l -> params (w i) = params (w' i).
Proof.
  unfold vec. induction l as [|x l IH]; [intros _ []|]. cbn [map In]. intros E [-> | H]; [congruence|]. apply IH; [congruence|exact H].
Qed.
Lemma canon_params w w' v j : canon w v -> canon w' v -> (j < next)%nat -> not_bias ls j -> params (w j) = params (w' j).
Proof.
  intros A B L NB. destruct (in_dec Nat.eq_dec j ts) as [I|N].
  - apply (vec_in w w' ts); [rewrite (ca_vec _ _ A), (ca_vec _ _ B); reflexivity|exact I].
  - rewrite (ca_rest _ _ A j L N NB), (ca_rest _ _ B j L N NB). reflexivity.
Qed.
Lemma code_of_ext q x s s' z p : (s == s')%Q -> code_of q x s z p = code_of q x s' z p.
Proof.
  intros E. unfold code_of, real_code. f_equal. apply Qfloor_comp. rewrite E. reflexivity.
Qed.
Lemma skel_export n n' : skel n = skel n' -> (n_scale n == n_scale n')%Q -> n_zp n = n_zp n' -> in_step n -> in_step n' ->
  (n_lut n = None \/ (n_scale n = n_scale n' /\ lut_sync n /\ lut_sync n')) -> same_export n n'.
Proof.
  intros K S Z I I' L.
  assert (KQ : n_q n = n_q n') by (change (n_q (skel n) = n_q (skel n')); now rewrite K).
  split; [exact S|]. split; [exact Z|]. split; [exact KQ|]. split.
  - assert (KT := f_equal n_tens K). cbn [skel n_tens] in KT. unfold in_step in I, I'.
    destruct (n_tens n) as [t|], (n_tens n') as [t'|]; cbn [option_map] in KT; try discriminate; [|exact Logic.I].
    assert (F : t_fp t = t_fp t') by (assert (X := f_equal (option_map t_fp) KT); cbn in X; congruence).
    assert (P : t_policy t = t_policy t') by (assert (X := f_equal (option_map t_policy) KT); cbn in X; congruence).
    destruct I as [I1 I2], I' as [I1' I2']. split; [congruence|]. intros i V. rewrite I1 in V. rewrite (I2 i V), (I2' i) by (rewrite <- F; exact V).
    rewrite F, P, KQ, Z. now apply code_of_ext.
  - assert (KL := f_equal n_lut K). cbn [skel n_lut] in KL. unfold lut_sync in L.
    destruct (n_lut n) as [l|], (n_lut n') as [l'|]; cbn [option_map] in KL |- *; try discriminate; [|reflexivity].
    destruct L as [L|(SS & T & T')]; [discriminate|].
    assert (X1 : l_q l = l_q l') by (assert (X := f_equal (option_map l_q) KL); cbn in X; congruence).
    assert (X2 : l_fn l = l_fn l') by (assert (X := f_equal (option_map l_fn) KL); cbn in X; congruence).
    assert (X3 : l_out_s l = l_out_s l') by (assert (X := f_equal (option_map l_out_s) KL); cbn in X; congruence).
    assert (X4 : l_out_zp l = l_out_zp l') by (assert (X := f_equal (option_map l_out_zp) KL); cbn in X; congruence).
    assert (X5 : l_policy l = l_policy l') by (assert (X := f_equal (option_map l_policy) KL); cbn in X; congruence).
    unfold lut_json, lut_offset. rewrite T, T', X1, X2, X3, X4, X5, SS, Z. reflexivity.
Qed.
Lemma skel_lut_none n n' : skel n = skel n' -> n_lut n' = None -> n_lut n = None.
Proof. intros K E. assert (KL := f_equal n_lut K). cbn [skel n_lut] in KL. rewrite E in KL. destruct (n_lut n); [discriminate|reflexivity]. Qed.
Lemma canon_same w w' v : canon w v -> canon w' v -> same_network next w w'.
Proof.
  intros A B j L.
  assert (K : skel (w j) = skel (w' j)) by (rewrite (ca_skel _ _ A j L), (ca_skel _ _ B j L); reflexivity).
  destruct (bias_dec j) as [NB|(h & Hh & E)].
  - assert (P := canon_params _ _ _ j A B L NB). assert (n_scale (w j) = n_scale (w' j)) by (change (fst (params (w j)) = fst (params (w' j))); now rewrite P).
    assert (n_zp (w j) = n_zp (w' j)) by (change (snd (params (w j)) = snd (params (w' j))); now rewrite P).
    apply skel_export; [exact K|rewrite H; reflexivity|exact H0|apply (ca_step _ _ A j L)|apply (ca_step _ _ B j L)|].
    right. split; [exact H|]. split; [apply (ca_sync _ _ A j L NB)|apply (ca_sync _ _ B j L NB)].
  - subst j. destruct (so_bias _ _ (ca_sound _ _ A) h Hh) as (A1 & A2 & A3). destruct (so_bias _ _ (ca_sound _ _ B) h Hh) as (B1 & B2 & B3).
    destruct (se_ids _ _ _ SE h Hh) as (I1 & I2 & I3). 
    assert (NK : not_bias ls (h_kernel h)). { intros g Hg C. destruct (wi_sep _ _ (so_wired _ _ (ca_sound _ _ A)) g h Hg Hh) as (X & _). congruence. }
    assert (NI : not_bias ls (h_input h)). { intros g Hg C. destruct (wi_sep _ _ (so_wired _ _ (ca_sound _ _ A)) g h Hg Hh) as (_ & X & _). congruence. }
    assert (PK := canon_params _ _ _ _ A B I2 NK). assert (PI := canon_params _ _ _ _ A B I3 NI).
    apply skel_export; [exact K| |congruence|exact A3|exact B3|].
    + rewrite A1, B1. unfold params in PK, PI. assert (n_scale (w (h_kernel h)) = n_scale (w' (h_kernel h))) as -> by congruence.
      assert (n_scale (w (h_input h)) = n_scale (w' (h_input h))) as -> by congruence. reflexivity.
    + left. apply (skel_lut_none _ (w0 (h_bias h))); [apply (ca_skel _ _ A _ I1)|apply (se_nolut _ _ _ SE h Hh)].
Qed.

(** state at the head of the loop *)
Record head (st : bfs) (v : list (Q * Z)) : Prop := {
  he_sound : sound ls (b_w st);
  he_skel : forall j, (j < next)%nat -> skel (b_w st j) = skel (w0 j);
  he_ts : vec (b_w st) ts = v;
  he_cs : vec (b_w st) cs = v;
  he_pos : forall p, In p v -> (0 < fst p)%Q;
  he_rest : forall j, (j < next)%nat -> ~ In j ts -> not_bias ls j -> b_w st j = w0 j;
  he_cost : exists w, canon w v /\ (cost w == b_best st)%Q;
  he_seen : exists recent b older, b_seen st = recent ++ b :: older /\ (b == b_best st)%Q /\ length recent = b_retries st /\
    (forall x, In x recent -> (b_best st <= x)%Q) /\ (forall x, In x older -> (b_best st < x)%Q) /\
    (last (b_seen st) 0 == cost w0)%Q }.

Lemma vec_pos w l : (forall p, In p (vec w l) -> (0 < fst p)%Q) -> forall i, In i l -> (0 < n_scale (w i))%Q.
Proof. intros H i Hi. apply (H (params (w i))). unfold vec. apply in_map_iff. eauto. Qed.

Lemma init_head : exists v, head (bfs_init cost w0 next ts) v.
Proof.
  exists (vec w0 ts). assert (OLD := deepcopy_old ts w0 next).
  assert (SO : sound ls (deepcopy w0 next ts)) by (apply deepcopy_sound; [apply SE|intros h Hh; apply (se_ids _ _ _ SE h Hh)]).
  assert (V : vec (deepcopy w0 next ts) ts = vec w0 ts) by (apply vec_ext; intros i Hi; now rewrite OLD by (apply ts_lt; exact Hi)).
  assert (CA : canon (deepcopy w0 next ts) (vec w0 ts)).
  { split; [exact SO|intros j L; now rewrite OLD|intros j L; rewrite OLD by exact L; now apply SE|intros j L _; rewrite OLD by exact L; now apply SE|exact V|intros j L _ _; now apply OLD]. }
  split; cbn [bfs_init b_w b_best b_retries b_seen].
  - exact SO.
  - intros j L. now rewrite OLD.
  - exact V.
  - apply deepcopy_new. exact ts_lt.
  - intros p Hp. unfold vec in Hp. apply in_map_iff in Hp as (i & <- & Hi). cbn. now apply TU.
  - intros j L _ _. now apply OLD.
  - eexists. split; [exact CA|reflexivity].
  - exists [], (cost (deepcopy w0 next ts)), []. repeat split; try (intros x []). cbn [last].
    apply LO. intros j L. rewrite OLD by exact L. repeat split; try reflexivity. destruct (n_tens (w0 j)); [split; reflexivity|exact I].
Qed.

Lemma last_cons (x : Q) l : l <> [] -> last (x :: l) 0%Q = last l 0%Q.
Proof. destruct l; [congruence|reflexivity]. Qed.
Lemma step_head st v ds : head st v -> (forall k, fair_draw (ds k)) ->
  exists st' v', bfs_step (S (S f)) cost ts cs ds st = Ok st' /\ head st' v' /\
    ((b_retries st' = O /\ (b_best st' < b_best st)%Q) \/ (b_retries st' = S (b_retries st) /\ b_best st' = b_best st)).
Proof.
  intros [SO SK VT VC PO RE (ws & CA & CO) (rec & b & old & SN & BB & LR & R1 & R2 & LA)] FD. unfold bfs_step.
  destruct (move_frame f ls ts (b_w st) ds SO (proj1 TU) ts_nb FD) as (w1 & E1 & SO1 & T1 & O1 & K1).
  { apply vec_pos. rewrite VT. exact PO. }
  rewrite E1. cbn [rbind].
  assert (SK1 : forall j, (j < next)%nat -> skel (w1 j) = skel (w0 j)) by (intros j L; rewrite K1; now apply SK).
  assert (RE1 : forall j, (j < next)%nat -> ~ In j ts -> not_bias ls j -> w1 j = w0 j) by (intros j L N NB; rewrite O1 by assumption; now apply RE).
  assert (VC1 : vec w1 cs = v).
  { rewrite <- VC. apply vec_ext. intros i Hi. rewrite O1; [reflexivity| |now apply cs_nb]. intros C. apply ts_lt in C. apply cs_ge in Hi. lia. }
  assert (NE : b_seen st <> []) by (rewrite SN; destruct rec; discriminate).
  destruct (Qltb (cost w1) (b_best st)) eqn:C.
  - apply Qltb_lt in C.
    destruct (copy_frame f ls false cs ts w1 SO1 cs_len cs_nodup cs_nb) as (w2 & E2 & SO2 & V2 & T2 & O2 & K2); [|exact ts_nb|].
    { intros i Hi D. apply ts_lt in D. apply cs_ge in Hi. lia. }
    rewrite E2. cbn [rbind]. eexists _, (vec w1 ts). split; [reflexivity|]. cbn [b_retries b_best]. split; [|left; split; [reflexivity|exact C]].
    assert (TC : forall i, In i ts -> ~ In i cs) by (intros i Hi D; apply ts_lt in Hi; apply cs_ge in D; lia).
    split; cbn [b_w b_best b_retries b_seen].
    + exact SO2.
    + intros j L. rewrite K2. now apply SK1.
    + apply vec_ext. intros i Hi. rewrite O2; [reflexivity|now apply TC|now apply ts_nb].
    + exact V2.
    + intros p Hp. unfold vec in Hp. apply in_map_iff in Hp as (i & <- & Hi). cbn. now apply T1.
    + intros j L N NB. rewrite O2 by (try exact NB; intros D; apply cs_ge in D; lia). now apply RE1.
    + exists w1. split; [|reflexivity]. split; try assumption.
      * intros j L. destruct (in_dec Nat.eq_dec j ts) as [Hj|Hj]; [now apply T1|]. destruct (bias_dec j) as [NB|(h & Hh & ->)]; [|now apply (so_bias _ _ SO1)].
        rewrite RE1 by assumption. now apply SE.
      * intros j L NB. destruct (in_dec Nat.eq_dec j ts) as [Hj|Hj]; [now apply T1|]. rewrite RE1 by assumption. now apply SE.
      * reflexivity.
    + exists [], (cost w1), (b_seen st). split; [reflexivity|]. split; [reflexivity|]. split; [reflexivity|]. split; [intros x []|]. split.
      * intros x Hx. rewrite SN in Hx. apply in_app_iff in Hx as [Hx|[<- |Hx]]; [specialize (R1 x Hx)| |specialize (R2 x Hx)]; lra.
      * now rewrite last_cons.
  - apply Qltb_ge in C.
    destruct (copy_frame f ls false ts cs w1 SO1 (eq_sym cs_len) (proj1 TU) ts_nb) as (w2 & E2 & SO2 & V2 & T2 & O2 & K2); [|exact cs_nb|].
    { intros i Hi D. apply ts_lt in Hi. apply cs_ge in D. lia. }
    rewrite E2. cbn [rbind]. eexists _, v. split; [reflexivity|]. cbn [b_retries b_best]. split; [|right; split; reflexivity].
    split; cbn [b_w b_best b_retries b_seen].
    + exact SO2.
    + intros j L. rewrite K2. now apply SK1.
    + rewrite V2. exact VC1.
    + rewrite <- VC1. apply vec_ext. intros i Hi. rewrite O2; [reflexivity| |now apply cs_nb]. intros D. apply ts_lt in D. apply cs_ge in Hi. lia.
    + exact PO.
    + intros j L N NB. rewrite O2 by assumption. now apply RE1.
    + eauto.
    + exists (cost w1 :: rec), b, old. rewrite SN. split; [reflexivity|]. split; [exact BB|]. split; [cbn; congruence|]. split; [|split; [exact R2|]].
      * intros x [<- |Hx]; [exact C|now apply R1].
      * rewrite <- SN. now rewrite last_cons.
Qed.

Lemma final_canon st v : head st v -> exists w', copy (S (S f)) (b_w st) ts cs true = Ok w' /\ canon w' v /\ (forall p, In p v -> (0 < fst p)%Q).
Proof.
  intros [SO SK VT VC PO RE (ws & CA & CO) _].
  destruct (copy_frame f ls true ts cs (b_w st) SO (eq_sym cs_len) (proj1 TU) ts_nb) as (w2 & E2 & SO2 & V2 & T2 & O2 & K2); [|exact cs_nb|].
  { intros i Hi D. apply ts_lt in Hi. apply cs_ge in D. lia. }
  exists w2. split; [exact E2|]. split; [|exact PO].
  assert (RE2 : forall j, (j < next)%nat -> ~ In j ts -> not_bias ls j -> w2 j = w0 j) by (intros j L N NB; rewrite O2 by assumption; now apply RE).
  assert (TT : forall i, In i ts -> in_step (w2 i) /\ lut_sync (w2 i)).
  { intros i Hi. destruct (T2 i Hi) as (s & z & E). rewrite E. split; [apply requantize_ok, (so_good _ _ SO i)|apply requantize_sync]. }
  split.
  - exact SO2.
  - intros j L. rewrite K2. now apply SK.
  - intros j L. destruct (in_dec Nat.eq_dec j ts) as [Hj|Hj]; [now apply TT|]. destruct (bias_dec j) as [NB|(h & Hh & ->)]; [|now apply (so_bias _ _ SO2)].
    rewrite RE2 by assumption. now apply SE.
  - intros j L NB. destruct (in_dec Nat.eq_dec j ts) as [Hj|Hj]; [now apply TT|]. rewrite RE2 by assumption. now apply SE.
  - now rewrite V2.
  - exact RE2.
Qed.

Lemma loop_head max : forall turns ds st v, head st v -> (b_retries st <= max)%nat -> (forall t k, fair_draw (ds t k)) ->
  exists r, bfs_loop (S (S f)) cost ts cs max turns ds st = Ok r /\
    match r with None => True | Some st' => exists v', head st' v' /\ b_retries st' = S max end.
Proof.
  induction turns as [|t IH]; intros ds st v H R FD; cbn [bfs_loop]; [now exists None|].
  destruct (step_head st v (ds O) H (FD O)) as (st1 & v1 & E & H1 & D). rewrite E. cbn [rbind].
  destruct (Nat.ltb_spec max (b_retries st1)) as [L|L].
  - exists (Some st1). split; [reflexivity|]. exists v1. split; [exact H1|]. destruct D as [[D _]|[D _]]; lia.
  - destruct (IH (fun k => ds (S k)) st1 v1 H1 L (fun t => FD (S t))) as (r & E2 & X). exists r. split; [exact E2|exact X].
Qed.
End Loop.

(** ** The theorem *)
(** From a settled network the equalizer never raises.  When it stops, the network holds the parameters of the
    cheapest network it evaluated: the reported cost is the cost of the network left behind, no cost it
    evaluated (the initial one is the last of the list) was lower, and it stopped because of exactly max + 1
    consecutive evaluations without improvement after the one that gave the reported cost.  Nodes that were not
    tuned are untouched (biases excepted, whose scale follows) and the network is settled again. *)
Theorem C35_best_state : forall next ls w0 ts cost f max turns ds,
  settled next ls w0 -> tunable next ls w0 ts -> loss_of_network next cost -> (forall t k, fair_draw (ds t k)) ->
  exists r, bfs_optimize (S (S f)) cost w0 next ts max turns ds = Ok r /\
  match r with
  | None => True
  | Some (w', c, seen) =>
      settled next ls w' /\ tunable next ls w' ts /\
      (cost w' == c)%Q /\ (c <= cost w0)%Q /\ (last seen 0 == cost w0)%Q /\ (forall x, In x seen -> (c <= x)%Q) /\
      (exists recent b older, seen = recent ++ b :: older /\ (b == c)%Q /\ length recent = S max /\ (forall x, In x older -> (c < x)%Q)) /\
      (forall j, (j < next)%nat -> ~ In j ts -> not_bias ls j -> w' j = w0 j)
  end.
Proof.
  intros next ls w0 ts cost f max turns ds SE TU LO FD. unfold bfs_optimize.
  destruct (init_head next ls w0 ts cost SE TU LO) as (v & H).
  destruct (loop_head next ls w0 ts cost f SE TU max turns ds _ v H (Nat.le_0_l _) FD) as (r & E & X).
  rewrite E. cbn [rbind]. destruct r as [st|]; [|now exists None]. destruct X as (v' & H' & R).
  destruct (final_canon next ls w0 ts cost f SE TU st v' H') as (w' & EC & CA & PO). rewrite EC. cbn [rbind].
  eexists. split; [reflexivity|]. cbv beta iota.
  destruct H' as [_ _ _ _ _ _ (ws & CS & CO) (rec & b & old & SN & BB & LR & R1 & R2 & LA)].
  assert (EQ : (cost w' == b_best st)%Q) by (rewrite <- CO; apply LO; exact (canon_same next ls w0 ts SE _ _ _ CA CS)).
  assert (ALL : forall x, In x (b_seen st) -> (b_best st <= x)%Q).
  { intros x Hx. rewrite SN in Hx. apply in_app_iff in Hx as [Hx|[<- |Hx]]; [auto|lra|specialize (R2 x Hx); lra]. }
  assert (LE : (b_best st <= cost w0)%Q).
  { rewrite <- LA. apply ALL. rewrite SN. assert (NE : rec ++ b :: old <> []) by (destruct rec; discriminate).
    rewrite (app_removelast_last 0%Q NE) at 2. apply in_app_iff. right. now left. }
  split; [|split; [|split; [exact EQ|split; [exact LE|split; [exact LA|split; [exact ALL|split]]]]]].
  - destruct CA as [C1 C2 C3 C4 C5 C6]. split.
    + exact C1.
    + apply SE.
    + exact C3.
    + intros j L. destruct SE as [_ IDS _ _ NL].
      assert (NB : not_bias ls j \/ exists h, In h ls /\ j = h_bias h).
      { clear. unfold not_bias. induction ls as [|h l IH]; [left; intros h []|].
        destruct (Nat.eq_dec j (h_bias h)) as [-> | N]; [right; exists h; split; [now left|reflexivity]|].
        destruct IH as [IH|(g & H & E)]; [left; intros g [<- |H]; auto|right; exists g; split; [now right|exact E]]. }
      destruct NB as [NB|(h & Hh & ->)]; [now apply C4|]. unfold lut_sync. rewrite (skel_lut_none _ _ (C2 _ L) (NL h Hh)). exact I.
    + intros h Hh. destruct (se_ids _ _ _ SE h Hh) as (I1 & _). apply (skel_lut_none _ _ (C2 _ I1)). now apply SE.
  - destruct TU as [ND T]. split; [exact ND|]. intros i Hi. destruct (T i Hi) as (L & NB & P). split; [exact L|]. split; [exact NB|].
    destruct CA as [_ _ _ _ C5 _]. apply (PO (params (w' i))). rewrite <- C5. unfold vec. apply in_map_iff. eauto.
  - exists rec, b, old. split; [exact SN|]. split; [exact BB|]. split; [congruence|exact R2].
  - apply CA.
Qed.

(** ** Networks the quantizer builds *)
(** the nodes of the specification carry no look-up table yet and have positive scales *)
Definition fresh_node (n : node) : Prop := n_lut n = None /\ (0 < n_scale n)%Q.
Definition fresh_spec (sp : dense_spec) : Prop :=
  fresh_node (s_kernel sp) /\ fresh_node (s_bias_add sp) /\ match s_act sp with Some (_, on) => fresh_node on | None => True end.

Record built (st : net) (t : nat) : Prop := {
  bu_next : w_next st = (4 * t + 1)%nat;
  bu_bias : forall h, In h (w_layers st) -> exists u, (u < t)%nat /\ h_bias h = (4 * u + 2)%nat;
  bu_sync : forall j, lut_sync (w_nodes st j);
  bu_nolut : forall h, In h (w_layers st) -> n_lut (w_nodes st (h_bias h)) = None;
  bu_pos : forall j, (0 < n_scale (w_nodes st j))%Q }.
Lemma subscribe_view w h j : n_lut (subscribe w h j) = n_lut (w j) /\ n_scale (subscribe w h j) = n_scale (w j) /\ n_zp (subscribe w h j) = n_zp (w j).
Proof.
  unfold subscribe. set (w1 := upd w (h_kernel h) _).
  assert (A : forall k, n_lut (w1 k) = n_lut (w k) /\ n_scale (w1 k) = n_scale (w k) /\ n_zp (w1 k) = n_zp (w k)).
  { intros k. unfold w1. match goal with |- context [upd w ?i ?n k] => destruct (upd_cases w i k n) as [[-> ->]|[_ ->]] end; repeat split. }
  match goal with |- context [upd w1 ?i ?n j] => destruct (upd_cases w1 i j n) as [[-> ->]|[_ ->]] end; [cbn|]; apply A.
Qed.
Lemma add_dense_built st sp t : built st t -> fresh_spec sp -> built (add_dense st sp) (S t).
Proof.
  intros [BN BB BS BL BP] ((K1 & K2) & (A1 & A2) & AC). unfold add_dense. destruct st as [w nx inp ls]. cbn [w_nodes w_next w_in w_layers] in *.
  set (kn := set_hooks (s_kernel sp) []). set (bn := with_tensor _ (s_bias sp)).
  set (an0 := set_hooks (s_bias_add sp) []). set (an := match s_act sp with Some (fn, on) => with_lut an0 fn (n_scale on) (n_zp on) | None => an0 end).
  set (h := mkhook (S nx) nx inp).
  set (w2 := upd (upd (upd w nx kn) (S nx) bn) (S (S nx)) an).
  set (w3 := match s_act sp with Some (_, on) => upd w2 (S (S (S nx))) (set_hooks on []) | None => w2 end).
  assert (SYN : forall n, n_lut n = None -> lut_sync n) by (intros n E; unfold lut_sync; rewrite E; exact I).
  assert (ALL : forall j, lut_sync (w3 j) /\ (0 < n_scale (w3 j))%Q).
  { assert (X : forall j, lut_sync (w2 j) /\ (0 < n_scale (w2 j))%Q).
    { intros j. unfold w2. destruct (upd_cases (upd (upd w nx kn) (S nx) bn) (S (S nx)) j an) as [[_ ->]|[_ ->]].
      - unfold an. destruct (s_act sp) as [[fn on]|]; [split; [reflexivity|exact A2]|split; [apply SYN; exact A1|exact A2]].
      - destruct (upd_cases (upd w nx kn) (S nx) j bn) as [[_ ->]|[_ ->]].
        + split; [exact I|]. cbn [bn with_tensor node_new n_scale]. assert (P := BP inp). rewrite Qmult_comm. setoid_replace 0%Q with (0 * n_scale (w inp))%Q by ring. apply Qmult_lt_compat_r; [exact P|exact K2].
        + destruct (upd_cases w nx j kn) as [[_ ->]|[_ ->]]; [split; [apply SYN; exact K1|exact K2]|split; [apply BS|apply BP]]. }
    intros j. unfold w3. destruct (s_act sp) as [[fn on]|]; [|apply X]. destruct AC as [C1 C2].
    destruct (upd_cases w2 (S (S (S nx))) j (set_hooks on [])) as [[_ ->]|[_ ->]]; [split; [apply SYN; exact C1|exact C2]|apply X]. }
  assert (VAL : forall j, (j < nx)%nat -> w3 j = w j).
  { intros j Hj. assert (X : w2 j = w j) by (unfold w2; rewrite !upd_other by lia; reflexivity).
    unfold w3. destruct (s_act sp) as [[fn on]|]; [|exact X]. rewrite upd_other by lia. exact X. }
  assert (BNN : w3 (S nx) = bn).
  { assert (X : w2 (S nx) = bn) by (unfold w2; rewrite upd_other by lia; apply upd_same).
    unfold w3. destruct (s_act sp) as [[fn on]|]; [|exact X]. rewrite upd_other by lia. exact X. }
  split; cbn [w_nodes w_next w_in w_layers].
  - lia.
  - intros g Hg. apply in_app_iff in Hg as [Hg|[<- |[]]]; [destruct (BB g Hg) as (u & U & E); exists u; split; [lia|exact E]|].
    exists t. cbn [h_bias h]. split; lia.
  - intros j. destruct (subscribe_view w3 h j) as (E1 & E2 & E3). unfold lut_sync. rewrite E1, E2, E3. apply ALL.
  - intros g Hg. destruct (subscribe_view w3 h (h_bias g)) as (-> & _). apply in_app_iff in Hg as [Hg|[<- |[]]].
    + destruct (BB g Hg) as (u & U & E). rewrite VAL by lia. now apply BL.
    + cbn [h_bias h]. rewrite BNN. reflexivity.
  - intros j. destruct (subscribe_view w3 h j) as (_ & -> & _). apply ALL.
Qed.
Lemma build_built input specs : fresh_node input -> Forall fresh_spec specs -> built (build_net input specs) (length specs).
Proof.
  intros [L P] F. unfold build_net.
  assert (G : forall l st t, built st t -> Forall fresh_spec l -> built (fold_left add_dense l st) (t + length l)).
  { induction l as [|x l IH]; intros st t B FF; cbn [fold_left length]; [now rewrite Nat.add_0_r|].
    inversion FF; subst. replace (t + S (length l))%nat with (S t + length l)%nat by lia. apply IH; [|assumption]. now apply add_dense_built. }
  apply (G specs (start_net input) O); [|exact F]. split; cbn; try (intros h []); [reflexivity| |exact (fun _ => P)].
  intros j. unfold lut_sync. cbn. rewrite L. exact I.
Qed.

(** every stack of dense layers meets the hypotheses, and any distinct non-bias nodes can be tuned *)
Theorem C35_dense_networks_settled : forall input specs, good input -> in_step input -> Forall spec_ok specs ->
  fresh_node input -> Forall fresh_spec specs ->
  let st := build_net input specs in
  w_next st = (4 * length specs + 1)%nat /\ settled (w_next st) (w_layers st) (w_nodes st) /\
  forall ts, NoDup ts -> (forall i, In i ts -> (i < 4 * length specs + 1 /\ i mod 4 <> 2)%nat) -> tunable (w_next st) (w_layers st) (w_nodes st) ts.
Proof.
  intros input specs G S0 F FI FS st.
  destruct (build_ok input specs G S0 F) as [NG NW NB _ _ NID]. destruct (build_built input specs FI FS) as [BN BB BS BL BP].
  fold st in NG, NW, NB, NID, BN, BB, BS, BL, BP. split; [exact BN|]. split.
  - split.
    + split; [intros j; apply NG|exact NW|exact NB].
    + intros h Hh. apply (NID h Hh).
    + intros j _. apply NG.
    + intros j _. apply BS.
    + exact BL.
  - intros ts ND T. split; [exact ND|]. intros i Hi. destruct (T i Hi) as [L M]. split; [rewrite BN; exact L|]. split; [|apply BP].
    intros h Hh C. destruct (BB h Hh) as (u & U & E). apply M. rewrite C, E. replace (4 * u + 2)%nat with (2 + u * 4)%nat by lia.
    rewrite Nat.mod_add by lia. reflexivity.
Qed.

(** ** A whole run of the layer-wise or network-wise equalizer *)
(** groups of distinct non-bias nodes *)
Definition groups_ok (next : nat) (gs : list (list nat)) : Prop :=
  Forall (fun g => NoDup g /\ forall i, In i g -> (i < next /\ i mod 4 <> 2)%nat) gs.
Lemma layer_nodes_in t a i : In i (layer_nodes t a) -> (4 * t + 1 <= i <= 4 * t + 4 /\ i mod 4 <> 2)%nat.
Proof.
  intros H. assert (M1 : ((4 * t + 1) mod 4 = 1)%nat) by (replace (4*t+1)%nat with (1 + t * 4)%nat by lia; rewrite Nat.mod_add by lia; reflexivity).
  assert (M3 : ((4 * t + 3) mod 4 = 3)%nat) by (replace (4*t+3)%nat with (3 + t * 4)%nat by lia; rewrite Nat.mod_add by lia; reflexivity).
  assert (M4 : ((4 * t + 4) mod 4 = 0)%nat) by (replace (4*t+4)%nat with (0 + (S t) * 4)%nat by lia; rewrite Nat.mod_add by lia; reflexivity).
  unfold layer_nodes in H. destruct H as [<- |[<- |H]]; [lia|lia|]. destruct a; [destruct H as [<- |[]]; lia|destruct H].
Qed.
Lemma layer_nodes_nodup t a : NoDup (layer_nodes t a).
Proof. unfold layer_nodes. destruct a; repeat constructor; cbn [In app]; lia. Qed.
Lemma combine_seq_lt (acts : list bool) : forall s p, In p (combine (seq s (length acts)) acts) -> (s <= fst p < s + length acts)%nat.
Proof.
  induction acts as [|a acts IH]; intros s p H; [destruct H|]. cbn [length seq combine] in H. destruct H as [<- |H]; [cbn; lia|].
  apply IH in H. cbn [length]. lia.
Qed.
Theorem C35_groups_ok : forall acts, groups_ok (4 * length acts + 1) (net_groups acts) /\ groups_ok (4 * length acts + 1) (full_groups acts).
Proof.
  intros acts. split.
  - unfold groups_ok, net_groups. rewrite Forall_forall. intros g Hg. apply in_concat in Hg as (gs & H1 & H2). apply in_rev in H1.
    apply in_map_iff in H1 as (p & <- & Hp). apply combine_seq_lt in Hp. unfold layer_groups in H2. destruct H2 as [<- |H2].
    + split; [apply layer_nodes_nodup|]. intros i Hi. apply layer_nodes_in in Hi. lia.
    + destruct (snd p); [|destruct H2]. destruct H2 as [<- |[]]. split; [repeat constructor; intros []|].
      intros i [<- |[]]. destruct (layer_nodes_in (fst p) true (4 * fst p + 4)) as [_ M]; [right; right; now left|]. lia.
  - unfold groups_ok, full_groups. constructor; [|constructor]. split.
    + generalize 0%nat as s. induction acts as [|a acts IH]; intros s; [constructor|]. cbn [length seq combine map concat fst snd].
      assert (X : forall l1 l2 : list nat, NoDup l1 -> NoDup l2 -> (forall x, In x l1 -> ~ In x l2) -> NoDup (l1 ++ l2)).
      { induction l1 as [|x l1 IHl]; intros l2 N1 N2 D; [exact N2|]. inversion N1; subst. cbn [app]. constructor.
        - intros C. apply in_app_iff in C as [C|C]; [contradiction|]. exact (D x (or_introl eq_refl) C).
        - apply IHl; auto. intros y Hy. apply D. now right. }
      apply X; [apply layer_nodes_nodup|apply IH|]. intros x Hx C. apply layer_nodes_in in Hx.
      apply in_concat in C as (l & H1 & H2). apply in_map_iff in H1 as (p & <- & Hp). apply combine_seq_lt in Hp. apply layer_nodes_in in H2. lia.
    + intros i Hi. apply in_concat in Hi as (l & H1 & H2). apply in_map_iff in H1 as (p & <- & Hp). apply combine_seq_lt in Hp. apply layer_nodes_in in H2. lia.
Qed.

(** Equalizing any sequence of groups never raises, never leaves a network with a larger loss than before, and
    leaves parameters, codes and tables of all nodes in step. *)
Definition all_positive (next : nat) (w : world) : Prop := forall j, (j < next)%nat -> (0 < n_scale (w j))%Q.
Theorem C35_equalize_never_worse : forall next ls cost f max turns gs w ds,
  settled next ls w -> all_positive next w -> (forall h, In h ls -> exists u, h_bias h = (4 * u + 2)%nat) ->
  loss_of_network next cost -> (forall g t k, fair_draw (ds g t k)) -> groups_ok next gs ->
  exists r, equalize (S (S f)) cost next max turns w gs ds = Ok r /\
    match r with None => True | Some w' => settled next ls w' /\ all_positive next w' /\ (cost w' <= cost w)%Q end.
Proof.
  intros next ls cost f max turns gs. induction gs as [|g gs IH]; intros w ds SE PO BI LO FD GO; cbn [equalize].
  - eexists. split; [reflexivity|]. split; [exact SE|]. split; [exact PO|]. apply Qle_refl.
  - inversion GO as [|? ? [ND GI] GO']; subst.
    assert (NBI : forall i, In i g -> not_bias ls i).
    { intros i Hi h Hh C. destruct (BI h Hh) as (u & E). destruct (GI i Hi) as [_ M]. apply M. rewrite C, E.
      replace (4 * u + 2)%nat with (2 + u * 4)%nat by lia. rewrite Nat.mod_add by lia. reflexivity. }
    assert (TU : tunable next ls w g). { split; [exact ND|]. intros i Hi. destruct (GI i Hi) as [L _]. split; [exact L|]. split; [now apply NBI|now apply PO]. }
    destruct (C35_best_state next ls w g cost f max turns (ds O) SE TU LO (FD O)) as (r & E & X). rewrite E. cbn [rbind].
    destruct r as [[[w1 c] seen]|]; [|now exists None]. destruct X as (SE1 & TU1 & C1 & C2 & _ & _ & _ & RE).
    assert (PO1 : all_positive next w1).
    { intros j L. destruct (in_dec Nat.eq_dec j g) as [I|N]; [now apply TU1|].
      assert (D : not_bias ls j \/ exists h, In h ls /\ j = h_bias h).
      { clear. unfold not_bias. induction ls as [|h l IH]; [left; intros h []|].
        destruct (Nat.eq_dec j (h_bias h)) as [-> | N]; [right; exists h; split; [now left|reflexivity]|].
        destruct IH as [IH|(g & H & E)]; [left; intros g [<- |H]; auto|right; exists g; split; [now right|exact E]]. }
      assert (POS : forall j, (j < next)%nat -> not_bias ls j -> (0 < n_scale (w1 j))%Q).
      { intros k Lk Nk. destruct (in_dec Nat.eq_dec k g) as [Ik|Nk']; [now apply TU1|]. rewrite RE by assumption. now apply PO. }
      destruct D as [D|(h & Hh & ->)]; [now apply POS|].
      destruct (so_bias _ _ (se_sound _ _ _ SE1) h Hh) as (B1 & _). destruct (se_ids _ _ _ SE1 h Hh) as (_ & I2 & I3).
      assert (W := so_wired _ _ (se_sound _ _ _ SE1)).
      assert (P1 : (0 < n_scale (w1 (h_kernel h)))%Q). { apply POS; [exact I2|]. intros g' Hg C. destruct (wi_sep _ _ W g' h Hg Hh) as (Y & _). congruence. }
      assert (P2 : (0 < n_scale (w1 (h_input h)))%Q). { apply POS; [exact I3|]. intros g' Hg C. destruct (wi_sep _ _ W g' h Hg Hh) as (_ & Y & _). congruence. }
      rewrite B1. setoid_replace 0%Q with (0 * n_scale (w1 (h_input h)))%Q by ring. now apply Qmult_lt_compat_r. }
    destruct (IH w1 (fun k => ds (S k)) SE1 PO1 BI LO (fun k => FD (S k)) GO') as (r & E2 & X2). exists r. split; [exact E2|].
    destruct r as [w2|]; [|exact I]. destruct X2 as (A & B & C). split; [exact A|]. split; [exact B|]. lra.
Qed.

(** ParamEqualizerNet and ParamEqualizerFullNet on every stack of dense layers *)
Theorem C35_dense_networks_never_worse : forall input specs cost f max turns ds gs, good input -> in_step input -> Forall spec_ok specs ->
  fresh_node input -> Forall fresh_spec specs ->
  let st := build_net input specs in
  let acts := map (fun sp => match s_act sp with Some _ => true | None => false end) specs in
  gs = net_groups acts \/ gs = full_groups acts ->
  loss_of_network (w_next st) cost -> (forall g t k, fair_draw (ds g t k)) ->
  exists r, equalize (S (S f)) cost (w_next st) max turns (w_nodes st) gs ds = Ok r /\
    match r with None => True | Some w' => settled (w_next st) (w_layers st) w' /\ (cost w' <= cost (w_nodes st))%Q end.
Proof.
  intros input specs cost f max turns ds gs G S0 F FI FS st acts GS LO FD.
  destruct (C35_dense_networks_settled input specs G S0 F FI FS) as (BN & SE & _). fold st in BN, SE.
  destruct (build_built input specs FI FS) as [_ BB _ _ BP]. fold st in BB, BP.
  assert (LA : length acts = length specs) by (unfold acts; apply map_length).
  destruct (C35_groups_ok acts) as [G1 G2]. rewrite LA, <- BN in G1, G2.
  destruct (C35_equalize_never_worse (w_next st) (w_layers st) cost f max turns gs (w_nodes st) ds SE (fun j _ => BP j)) as (r & E & X); auto.
  - intros h Hh. destruct (BB h Hh) as (u & _ & E). eauto.
  - destruct GS as [-> | ->]; assumption.
  - exists r. split; [exact E|]. destruct r as [w'|]; [|exact I]. destruct X as (A & _ & C). split; assumption.
Qed.

(** ** Termination for losses that count, from any integer [low] (for instance misclassified samples, or minus the number of hits) *)
Theorem C35_terminates : forall next ls w0 ts cost f max turns ds (low : Z) n0,
  settled next ls w0 -> tunable next ls w0 ts -> loss_of_network next cost -> (forall t k, fair_draw (ds t k)) ->
  (forall w, exists n : nat, (cost w == inject_Z (low + Z.of_nat n))%Q) -> (cost w0 == inject_Z (low + Z.of_nat n0))%Q ->
  ((n0 + 1) * (max + 1) <= turns)%nat ->
  exists w' c seen, bfs_optimize (S (S f)) cost w0 next ts max turns ds = Ok (Some (w', c, seen)).
Proof.
  intros next ls w0 ts cost f max turns ds low n0 SE TU LO FD INT C0 TT. unfold bfs_optimize.
  destruct (init_head next ls w0 ts cost SE TU LO) as (v & H).
  set (cs := seq next (length ts)) in *. set (st0 := bfs_init cost w0 next ts) in *.
  assert (LOOP : forall turns ds st v n, head next ls w0 ts cost st v -> (b_best st == inject_Z (low + Z.of_nat n))%Q -> (b_retries st <= max)%nat ->
    (forall t k, fair_draw (ds t k)) -> (n * (max + 1) + (max + 1 - b_retries st) <= turns)%nat ->
    exists st' v', bfs_loop (S (S f)) cost ts cs max turns ds st = Ok (Some st') /\ head next ls w0 ts cost st' v').
  { clear - SE TU INT. induction turns as [|t IH]; intros ds st v n H B R FD T; [lia|]. cbn [bfs_loop].
    destruct (step_head next ls w0 ts cost f SE TU st v (ds O) H (FD O)) as (st1 & v1 & E & H1 & D). fold cs in E. rewrite E. cbn [rbind].
    destruct (Nat.ltb_spec max (b_retries st1)) as [L|L]; [exists st1, v1; split; [reflexivity|exact H1]|].
    assert (EX : exists n1, (b_best st1 == inject_Z (low + Z.of_nat n1))%Q).
    { destruct (he_cost _ _ _ _ _ _ _ H1) as (w & _ & EW). destruct (INT w) as (n1 & E1). exists n1. rewrite <- EW. exact E1. }
    destruct EX as (n1 & B1).
    apply (IH _ st1 v1 n1 H1 B1 L (fun t => FD (S t))).
    destruct D as [[D1 D2]|[D1 D2]].
    - assert (n1 < n)%nat. { rewrite B1, B in D2. apply Zlt_inj in D2. lia. } rewrite D1. nia.
    - assert (NN : n1 = n). { rewrite <- D2, B1 in B. apply (proj1 (inject_Z_injective _ _)) in B. lia. } clear B. subst n1. lia. }
  assert (B0 : (b_best st0 == inject_Z (low + Z.of_nat n0))%Q).
  { unfold st0, bfs_init. cbn [b_best]. rewrite <- C0. apply LO. intros j L. rewrite deepcopy_old by exact L. repeat split; try reflexivity. destruct (n_tens (w0 j)); [split; reflexivity|exact I]. }
  destruct (LOOP turns ds st0 v n0 H B0 (Nat.le_0_l _) FD) as (st & v' & E & H').
  { unfold st0, bfs_init. cbn [b_retries]. nia. }
  rewrite E. cbn [rbind]. destruct (final_canon next ls w0 ts cost f SE TU st v' H') as (w' & EC & _). fold cs in EC. rewrite EC. cbn [rbind]. eauto.
Qed.

(** ** Interrupting the search *)
(** concrete run on the example network: the loss is the distance of the first kernel's scale from 1/8, so every
    move is rejected; max_retries = 1 stops after two moves and restores the network *)
Definition ex_loss (w : world) : Q := Qabs (n_scale (w 1%nat) - (1#8)).
Definition ex_draws (t k : nat) : draw := mkdraw (3#4) (1#2) (3#4).
Example C35_example : 
  let st := build_net ex_input ex_specs in
  Forall spec_ok ex_specs /\ fresh_node ex_input /\ Forall fresh_spec ex_specs /\ loss_of_network (w_next st) ex_loss /\ (forall t k, fair_draw (ex_draws t k)) /\
  layer_nodes 0 true = [1; 3; 4]%nat /\
  exists w' c seen, bfs_optimize 2 ex_loss (w_nodes st) (w_next st) (layer_nodes 0 true) 1 9 ex_draws = Ok (Some (w', c, seen)) /\ (c == 0)%Q /\ length seen = 3%nat /\ codes (w' 1%nat) = [4].
Proof.
  cbv zeta. split; [apply C32_example|]. split; [split; reflexivity|]. split; [repeat constructor|]. split.
  { intros w w' H. unfold ex_loss. assert (X := H 1%nat). destruct X as (X & _); [vm_compute; lia|]. now rewrite X. }
  split; [intros t k; unfold fair_draw, unit_draw, ex_draws; cbn; lra|]. split; [reflexivity|].
  assert (X : match bfs_optimize 2 ex_loss (w_nodes (build_net ex_input ex_specs)) (w_next (build_net ex_input ex_specs)) (layer_nodes 0 true) 1 9 ex_draws with
    | Ok (Some (w', c, seen)) => Some (c, length seen, codes (w' 1%nat)) | _ => None end = Some ((0 # 64)%Q, 3%nat, [4])) by (vm_compute; reflexivity).
  destruct (bfs_optimize _ _ _ _ _ _ _ _) as [[[[w' c] seen]|]|]; try discriminate. exists w', c, seen.
  assert (c = 0 # 64)%Q by congruence. subst c. split; [reflexivity|]. split; [reflexivity|]. split; congruence.
Qed.
(** Between two moves the network is not consistent: after a rejected move the parameters are restored but the
    codes are those of the rejected parameters, so stopping the process there (Ctrl-C, an exception in the loss)
    leaves a network whose kernel codes do not belong to its scale. *)
Theorem C35_interrupted_refuted : exists input specs cost ds st', 
  let st := build_net input specs in
  settled (w_next st) (w_layers st) (w_nodes st) /\ loss_of_network (w_next st) cost /\
  bfs_step 2 cost (layer_nodes 0 true) (seq (w_next st) 3) ds (bfs_init cost (w_nodes st) (w_next st) (layer_nodes 0 true)) = Ok st' /\
  params (b_w st' 1%nat) = params (w_nodes st 1%nat) /\ ~ in_step (b_w st' 1%nat).
Proof.
  exists ex_input, ex_specs, ex_loss, (ex_draws O). destruct C35_example as (F & FI & FS & LO & _).
  destruct (C35_dense_networks_settled ex_input ex_specs (proj1 (one_ok _ _ _)) (proj2 (one_ok _ _ _)) F FI FS) as (_ & SE & _).
  set (st := build_net ex_input ex_specs) in *.
  assert (X : match bfs_step 2 ex_loss (layer_nodes 0 true) (seq (w_next st) 3) (ex_draws O) (bfs_init ex_loss (w_nodes st) (w_next st) (layer_nodes 0 true)) with
    | Ok st' => let n := b_w st' 1%nat in match n_tens n with
        | Some t => Some (params n, valid_idx (nd_shape (t_fp t)) [0%nat],
            (nd_get (t_codes t) [0%nat] =? code_of (n_q n) (nd_get (t_fp t) [0%nat]) (n_scale n) (n_zp n) (nd_get (t_policy t) [0%nat]))%Z)
        | None => None end
    | _ => None end = Some (params (w_nodes st 1%nat), true, false)) by (vm_compute; reflexivity).
  destruct (bfs_step _ _ _ _ _ _) as [st'|] eqn:EB; [|discriminate]. exists st'. cbv zeta in *. split; [exact SE|]. split; [exact LO|]. split; [exact EB|].
  unfold in_step. destruct (n_tens (b_w st' 1%nat)) as [t|]; [|discriminate]. split; [congruence|]. intros [_ H].
  assert (V : valid_idx (nd_shape (t_fp t)) [0%nat] = true) by congruence. specialize (H [0%nat] V). apply Z.eqb_eq in H. congruence.
Qed.
