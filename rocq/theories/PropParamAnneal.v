(** C78: the annealing parameter equalizer works on detached copies of the nodes after its first rejected move. *)
From Verif Require Import Base BaseProofs DtypeModel QuantModel QuantProofs PropCore NodeModel EqModel PropNode PropEq BfsProofs PropBfs ParamAnnealModel.
From Coq Require Import Lqa.
Open Scope Z_scope.
Open Scope list_scope.

(** ** Specification *)
(** [tr k] is the network after [k] perturbations of its own nodes [ts], with the draws [ds] *)
Definition trials (fuel : nat) (w0 : world) (ts : list nat) (ds : nat -> nat -> draw) (tr : nat -> world) : Prop :=
  tr O = w0 /\ forall k, move fuel (tr k) ts (ds k) = Ok (tr (S k)).
(** perturbation number i makes the loss larger and fails the annealing test *)
Definition rejected (cost : world -> Q) (accept : nat -> bool) (tr : nat -> world) (i : nat) : Prop :=
  (cost (tr i) < cost (tr (S i)))%Q /\ accept i = false.
(** the smallest loss among the first k+1 networks *)
Definition is_min (cost : world -> Q) (tr : nat -> world) (k : nat) (c : Q) : Prop :=
  (exists i, (i <= k)%nat /\ (c == cost (tr i))%Q) /\ forall i, (i <= k)%nat -> (c <= cost (tr i))%Q.

(** ** Lemmas *)
Definition agree (next : nat) (w w' : world) : Prop := forall j, (j < next)%nat -> w j = w' j.
Lemma same_export_refl n : same_export n n.
Proof. repeat split; try reflexivity. destruct (n_tens n); [split; reflexivity|exact I]. Qed.
Lemma agree_same next w w' : agree next w w' -> same_network next w w'.
Proof. intros H j L. rewrite (H j L). apply same_export_refl. Qed.

(** updates of network nodes do not look at other objects *)
Definition closed (next : nat) (w : world) : Prop :=
  forall j h, (j < next)%nat -> In h (n_hooks (w j)) -> (h_bias h < next /\ h_kernel h < next /\ h_input h < next)%nat.
Lemma skel_hooks n n' : skel n = skel n' -> n_hooks n = n_hooks n'.
Proof. intros E. exact (f_equal n_hooks E). Qed.
Lemma update_local fuel next : forall w w' i s z rq w1, agree next w w' -> closed next w -> (i < next)%nat ->
  update fuel w i s z rq = Ok w1 -> exists w1', update fuel w' i s z rq = Ok w1' /\ agree next w1 w1'.
Proof.
  induction fuel as [|f IH]; intros w w' i s z rq w1 AG CL LT E; [discriminate|]. cbn [update] in E |- *.
  rewrite <- (AG i LT).
  set (n := if rq then requantize (set_params (w i) s z) else set_params (w i) s z) in *.
  assert (HN : forall h, In h (n_hooks n) -> (h_bias h < next /\ h_kernel h < next /\ h_input h < next)%nat).
  { intros h Hh. apply (CL i h LT). unfold n in Hh. destruct rq; exact Hh. }
  assert (AG1 : agree next (upd w i n) (upd w' i n)).
  { intros j L. destruct (Nat.eq_dec j i) as [-> | D]; [rewrite !upd_same; reflexivity|rewrite !upd_other by exact D; now apply AG]. }
  assert (CL1 : closed next (upd w i n)).
  { intros j h L Hh. destruct (upd_cases w i j n) as [[-> EQ]|[_ EQ]]; rewrite EQ in Hh; [now apply HN|now apply (CL j)]. }
  revert E AG1 CL1 HN. generalize (upd w i n) as v, (upd w' i n) as v'. generalize (n_hooks n) as hs. clear - IH.
  induction hs as [|h hs IHh]; intros v v' E AG CL HN; cbn [fold_left] in E |- *.
  - exists v'. split; [reflexivity|]. assert (v = w1) by congruence. now subst.
  - cbn [rbind] in E |- *. destruct (HN h (or_introl eq_refl)) as (L1 & L2 & L3).
    rewrite <- (AG _ L1), <- (AG _ L2), <- (AG _ L3).
    destruct (update f v _ _ _ true) as [v1|e] eqn:U; [|rewrite fold_update_err in E; discriminate].
    destruct (IH _ v' _ _ _ _ _ AG CL L1 U) as (v1' & U' & AG'). rewrite U'.
    apply (IHh v1 v1'); [exact E|exact AG'| |intros g Hg; apply HN; now right].
    intros j g L Hg. apply (CL j g L). rewrite <- (skel_hooks _ _ (update_skel _ _ _ _ _ _ _ U j)). exact Hg.
Qed.
Lemma update_closed fuel next w i s z rq w1 : closed next w -> update fuel w i s z rq = Ok w1 -> closed next w1.
Proof. intros CL U j g L Hg. apply (CL j g L). rewrite <- (skel_hooks _ _ (update_skel _ _ _ _ _ _ _ U j)). exact Hg. Qed.
Lemma move_local fuel next : forall ts w w' ds w1, agree next w w' -> closed next w -> (forall i, In i ts -> (i < next)%nat) ->
  move fuel w ts ds = Ok w1 -> exists w1', move fuel w' ts ds = Ok w1' /\ agree next w1 w1'.
Proof.
  induction ts as [|i ts IH]; intros w w' ds w1 AG CL LT E; cbn [move] in E |- *.
  - exists w'. split; [reflexivity|]. assert (w = w1) by congruence. now subst.
  - unfold move_one in *. assert (L := LT i (or_introl eq_refl)). rewrite <- (AG i L).
    destruct (eq_scale _ _ _) as [s|]; [|discriminate]. cbn [rbind] in E |- *.
    destruct (update fuel w i s _ true) as [v|] eqn:U; [|discriminate]. cbn [rbind] in E.
    destruct (update_local _ next _ w' _ _ _ _ _ AG CL L U) as (v' & U' & AG'). rewrite U'. cbn [rbind].
    apply (IH v v' _ w1 AG'); [exact (update_closed _ _ _ _ _ _ _ _ CL U)|intros j Hj; apply LT; now right|exact E].
Qed.

(** two stores of the same network whose non-bias nodes are equal show the same network *)
Lemma frozen_same next ls w w' : (forall h, In h ls -> (h_bias h < next /\ h_kernel h < next /\ h_input h < next)%nat) ->
  sound ls w -> sound ls w' -> (forall h, In h ls -> n_lut (w (h_bias h)) = None) ->
  (forall j, (j < next)%nat -> skel (w' j) = skel (w j)) -> (forall j, (j < next)%nat -> not_bias ls j -> w' j = w j) -> same_network next w w'.
Proof.
  intros ID SO SO' NL SK EQ j L.
  assert (D : not_bias ls j \/ exists h, In h ls /\ j = h_bias h).
  { clear. unfold not_bias. induction ls as [|h l IH]; [left; intros h []|].
    destruct (Nat.eq_dec j (h_bias h)) as [-> | N]; [right; exists h; split; [now left|reflexivity]|].
    destruct IH as [IH|(g & H & E)]; [left; intros g [<- |H]; auto|right; exists g; split; [now right|exact E]]. }
  destruct D as [NB|(h & Hh & ->)]; [rewrite (EQ j L NB); apply same_export_refl|].
  destruct (so_bias _ _ SO h Hh) as (A1 & A2 & A3). destruct (so_bias _ _ SO' h Hh) as (B1 & B2 & B3).
  destruct (ID h Hh) as (I1 & I2 & I3).
  assert (NK : not_bias ls (h_kernel h)). { intros g Hg C. destruct (wi_sep _ _ (so_wired _ _ SO) g h Hg Hh) as (X & _). congruence. }
  assert (NI : not_bias ls (h_input h)). { intros g Hg C. destruct (wi_sep _ _ (so_wired _ _ SO) g h Hg Hh) as (_ & X & _). congruence. }
  apply skel_export; [symmetry; now apply SK| |congruence|exact A3|exact B3|left; now apply NL].
  rewrite A1, B1, (EQ _ I2 NK), (EQ _ I3 NI). reflexivity.
Qed.
Lemma copy_pos w next l : (forall i, In i l -> (i < next)%nat /\ (0 < n_scale (w i))%Q) ->
  forall j, In j (seq next (length l)) -> (0 < n_scale (deepcopy w next l j))%Q.
Proof.
  intros H. apply vec_pos. rewrite deepcopy_new by (intros i Hi; now apply H).
  intros p Hp. unfold vec in Hp. apply in_map_iff in Hp as (i & <- & Hi). cbn. now apply H.
Qed.
Lemma same_trans_l next w w' w'' : same_network next w w' -> agree next w' w'' -> same_network next w w''.
Proof. intros A B j L. rewrite <- (B j L). now apply A. Qed.
Lemma same_export_trans a b c : same_export a b -> same_export b c -> same_export a c.
Proof.
  intros (A1 & A2 & A3 & A4 & A5) (B1 & B2 & B3 & B4 & B5).
  split; [lra|]. split; [congruence|]. split; [congruence|]. split; [|congruence].
  destruct (n_tens a), (n_tens b), (n_tens c); try contradiction; try exact I.
  destruct A4 as [X1 X2], B4 as [Y1 Y2]. split; [congruence|]. intros i V. rewrite X2 by exact V. apply Y2. rewrite <- X1. exact V.
Qed.

Section Run.
Context (next : nat) (ls : list hook) (w0 : world) (ts : list nat) (cost : world -> Q) (f : nat) (ds : nat -> nat -> draw) (acc : nat -> bool).
Context (SE : settled next ls w0) (TU : tunable next ls w0 ts) (LO : loss_of_network next cost) (FD : forall t k, fair_draw (ds t k)).

Fixpoint tr (k : nat) : world :=
  match k with
  | O => w0
  | S k => match move (S (S f)) (tr k) ts (ds k) with Ok w => w | Err _ => tr k end
  end.
Lemma tr_step k : move (S (S f)) (tr k) ts (ds k) = Ok (tr (S k)) /\ sound ls (tr k) /\ (forall i, In i ts -> (0 < n_scale (tr k i))%Q) /\
  (forall j, skel (tr k j) = skel (w0 j)).
Proof.
  assert (ST : sound ls (tr k) /\ (forall i, In i ts -> (0 < n_scale (tr k i))%Q) /\ (forall j, skel (tr k j) = skel (w0 j))).
  { induction k as [|k (SO & PO & SK)]; [split; [apply SE|split; [intros i Hi; now apply TU|reflexivity]]|].
    destruct (move_frame f ls ts (tr k) (ds k) SO (proj1 TU) (fun i Hi => proj1 (proj2 (proj2 TU i Hi))) (FD k) PO) as (w1 & E & SO1 & T1 & _ & K1).
    cbn [tr]. rewrite E. split; [exact SO1|]. split; [intros i Hi; now apply T1|]. intros j. rewrite K1. apply SK. }
  destruct ST as (SO & PO & SK). split; [|split; [exact SO|split; [exact PO|exact SK]]].
  destruct (move_frame f ls ts (tr k) (ds k) SO (proj1 TU) (fun i Hi => proj1 (proj2 (proj2 TU i Hi))) (FD k) PO) as (w1 & E & _).
  cbn [tr]. now rewrite E.
Qed.
Lemma tr_closed k : closed next (tr k).
Proof.
  intros j h L Hh. apply (se_ids _ _ _ SE). apply (wi_closed _ _ (so_wired _ _ (proj1 (proj2 (tr_step k)))) j). exact Hh.
Qed.

Notation rej := (rejected cost acc tr).
(** the store below [next] and the loop's position in the run *)
Record inv (i : nat) (p : pan) (k : nat) (done : bool) : Prop := {
  iv_sound : sound ls (p_w p);
  iv_skel : forall j, (j < next)%nat -> skel (p_w p j) = skel (w0 j);
  iv_next : (next <= p_next p)%nat;
  iv_nodup : NoDup (p_st p);
  iv_st : forall j, In j (p_st p) -> (j < p_next p)%nat /\ (0 < n_scale (p_w p j))%Q;
  iv_prev : forall j, In j (p_prev p) -> (next <= j < p_next p)%nat /\ (0 < n_scale (p_w p j))%Q;
  iv_best : forall j, In j (p_best p) -> (next <= j < p_next p)%nat;
  iv_k : (k <= i)%nat;
  iv_min : is_min cost tr k (p_bestE p);
  iv_phase : if done then (forall j, In j (p_st p) -> (next <= j)%nat) /\ same_network next (tr k) (p_w p) /\
                 (exists m, k = S m /\ rej m /\ forall j, (j < m)%nat -> ~ rej j)
             else p_st p = ts /\ agree next (tr k) (p_w p) /\ (p_prevE p == cost (tr k))%Q /\ k = i /\ forall j, (j < i)%nat -> ~ rej j }.

Lemma nb_high j : (next <= j)%nat -> not_bias ls j.
Proof. intros L h Hh C. destruct (se_ids _ _ _ SE h Hh). lia. Qed.

Lemma init_inv : inv O (pan_init cost w0 next ts) O false.
Proof.
  unfold pan_init, copy_state. set (w1 := deepcopy w0 next ts). set (n1 := (next + length ts)%nat). set (w2 := deepcopy w1 n1 ts).
  assert (O2 : forall j, (j < n1)%nat -> w2 j = w1 j) by (intros j L; now apply deepcopy_old).
  assert (O1 : forall j, (j < next)%nat -> w1 j = w0 j) by (intros j L; now apply deepcopy_old).
  assert (LN : (next <= n1)%nat) by (unfold n1; lia).
  assert (AG : agree next w0 w2) by (intros j L; rewrite O2 by lia; now rewrite O1).
  split; cbn [p_w p_st p_prev p_best p_next p_prevE p_bestE].
  - apply deepcopy_sound; [apply deepcopy_sound; [apply SE|apply SE]|]. intros h Hh. destruct (se_ids _ _ _ SE h Hh) as (A & B & C). lia.
  - intros j L. now rewrite <- AG.
  - lia.
  - apply TU.
  - intros j Hj. destruct (proj2 TU j Hj) as (L & _ & P). split; [lia|]. rewrite <- (AG j L). exact P.
  - intros j Hj. assert (RR : (next <= j < n1)%nat) by (apply in_seq in Hj; unfold n1; lia). split; [lia|]. rewrite O2 by lia. apply copy_pos; [|exact Hj].
    intros i Hi. destruct (proj2 TU i Hi) as (L & _ & P). split; assumption.
  - intros j Hj. apply in_seq in Hj. lia.
  - lia.
  - split; [exists O; split; [lia|reflexivity]|]. intros i Hi. replace i with O by lia. apply Qle_refl.
  - split; [reflexivity|]. split; [exact AG|]. split; [reflexivity|]. split; [reflexivity|]. intros j Hj. lia.
Qed.

Lemma step_inv i p k done : inv i p k done ->
  exists p' k' done', pan_step (S (S f)) cost (ds i) (acc i) p = Ok p' /\ inv (S i) p' k' done'.
Proof.
  intros [SO SK NX ND ST PR BE KI MI PH]. unfold pan_step.
  assert (NBS : forall j, In j (p_st p) -> not_bias ls j).
  { intros j Hj. destruct done; [apply nb_high; now apply PH|]. destruct PH as (E & _). rewrite E in Hj. now apply TU. }
  destruct (move_frame f ls (p_st p) (p_w p) (ds i) SO ND NBS (FD i) (fun j Hj => proj2 (ST j Hj))) as (w1 & E & SO1 & T1 & O1 & K1).
  rewrite E. cbn [rbind].
  assert (SK1 : forall j, (j < next)%nat -> skel (w1 j) = skel (w0 j)) by (intros j L; rewrite K1; now apply SK).
  assert (ST1 : forall j, In j (p_st p) -> (j < p_next p)%nat /\ (0 < n_scale (w1 j))%Q).
  { intros j Hj. split; [now apply ST|now apply T1]. }
  assert (PR1 : forall j, In j (p_prev p) -> (next <= j < p_next p)%nat /\ (0 < n_scale (w1 j))%Q).
  { intros j Hj. destruct (PR j Hj) as (L & P). split; [exact L|]. destruct (in_dec Nat.eq_dec j (p_st p)) as [Hs|Hs]; [now apply T1|].
    rewrite O1 by (try exact Hs; apply nb_high; lia). exact P. }
  assert (IDS : forall h, In h ls -> (h_bias h < p_next p /\ h_kernel h < p_next p /\ h_input h < p_next p)%nat).
  { intros h Hh. destruct (se_ids _ _ _ SE h Hh) as (A & B & C). lia. }
  (* the network after the move *)
  assert (NET : exists k1, (k1 <= S i)%nat /\ (cost w1 == cost (tr k1))%Q /\
     (if done then k1 = k /\ same_network next (tr k1) w1 else k1 = S i /\ agree next (tr k1) w1)).
  { destruct done.
    - destruct PH as (HI & SA & _). exists k. split; [lia|]. assert (SN : same_network next (tr k) w1).
      { intros j L. apply (same_export_trans _ (p_w p j)); [now apply SA|].
        apply (frozen_same next ls (p_w p) w1); [apply SE|exact SO|exact SO1| | | |exact L].
        - intros h Hh. apply (skel_lut_none _ (w0 (h_bias h))); [apply SK; now apply (se_ids _ _ _ SE)|now apply (se_nolut _ _ _ SE)].
        - intros m _. apply K1.
        - intros m Lm NB. apply O1; [|exact NB]. intros C. apply HI in C. lia. }
      split; [symmetry; now apply LO|]. split; [reflexivity|exact SN].
    - destruct PH as (ES & AG & _ & -> & _). exists (S i). split; [lia|].
      destruct (tr_step i) as (EM & _). rewrite ES in E.
      destruct (move_local (S (S f)) next ts (tr i) (p_w p) (ds i) (tr (S i)) AG (tr_closed i) (fun j Hj => proj1 (proj2 TU j Hj)) EM) as (w1' & E' & AG').
      assert (w1' = w1) by congruence. subst w1'. split; [symmetry; apply LO, agree_same, AG'|]. split; [reflexivity|exact AG']. }
  destruct NET as (k1 & KL & CE & NET).
  destruct (Qltb 0 (cost w1 - p_prevE p) && negb (acc i))%bool eqn:RJ; unfold copy_state.
  - (* rejected *)
    apply andb_prop in RJ as (R1 & R2). apply Qltb_lt in R1. apply Bool.negb_true_iff in R2.
    set (w2 := deepcopy w1 (p_next p) (p_prev p)).
    assert (O2 : forall j, (j < p_next p)%nat -> w2 j = w1 j) by (intros j L; now apply deepcopy_old).
    eexists _, k1, true. split; [reflexivity|].
    split; cbn [p_w p_st p_prev p_best p_next p_prevE p_bestE].
    + apply deepcopy_sound; assumption.
    + intros j L. rewrite O2 by lia. now apply SK1.
    + lia.
    + apply seq_NoDup.
    + intros j Hj. split; [apply in_seq in Hj; lia|]. apply copy_pos; [|exact Hj]. intros m Hm. destruct (PR1 m Hm). split; [lia|assumption].
    + intros j Hj. destruct (PR1 j Hj). split; [lia|]. rewrite O2 by lia. assumption.
    + intros j Hj. specialize (BE j Hj). lia.
    + exact KL.
    + destruct done; [destruct NET as [-> _]; exact MI|]. destruct NET as [-> _]. destruct PH as (_ & _ & PE & -> & _).
      destruct MI as ((m & M1 & M2) & M3). split; [exists m; split; [lia|exact M2]|]. intros m' Hm'.
      destruct (Nat.eq_dec m' (S i)) as [-> | N]; [|apply M3; lia]. specialize (M3 i (le_n i)). lra.
    + split; [intros j Hj; apply in_seq in Hj; lia|]. split.
      * apply (same_trans_l next _ w1); [|intros j L; rewrite O2 by lia; reflexivity]. destruct done; [apply NET|apply agree_same, NET].
      * destruct done; [destruct NET as [-> _]; apply PH|]. destruct NET as [-> _]. destruct PH as (_ & _ & PE & -> & NR).
        exists i. split; [reflexivity|]. split; [|exact NR]. split; [lra|exact R2].
  - set (w2 := deepcopy w1 (p_next p) (p_st p)). set (n2 := (p_next p + length (p_st p))%nat).
    assert (O2 : forall j, (j < p_next p)%nat -> w2 j = w1 j) by (intros j L; now apply deepcopy_old).
    assert (SO2 : sound ls w2) by (apply deepcopy_sound; assumption).
    assert (N2 : (p_next p <= n2)%nat) by (unfold n2; lia).
    assert (P2 : forall j, In j (seq (p_next p) (length (p_st p))) -> (next <= j < n2)%nat /\ (0 < n_scale (w2 j))%Q).
    { intros j Hj. split; [apply in_seq in Hj; unfold n2; lia|]. apply copy_pos; [exact ST1|exact Hj]. }
    assert (NR : done = false -> k1 = S i /\ forall j, (j < S i)%nat -> ~ rej j).
    { intros ->. destruct NET as [-> _]. destruct PH as (_ & _ & PE & -> & NR). split; [reflexivity|]. intros j Hj [X1 X2].
      destruct (Nat.eq_dec j i) as [-> | N]; [|now apply (NR j); [lia|split]]. rewrite X2 in RJ. cbn [negb] in RJ. rewrite andb_true_r in RJ.
      apply Qltb_ge in RJ. lra. }
    destruct (Qltb (cost w1) (p_bestE p)) eqn:BB.
    + apply Qltb_lt in BB. destruct done.
      { exfalso. destruct NET as [-> _]. destruct MI as (_ & M3). specialize (M3 k (le_n k)). lra. }
      destruct (NR eq_refl) as [-> NR']. destruct NET as [_ AG1]. destruct PH as (ES & AG & PE & -> & _).
      set (w3 := deepcopy w2 n2 (p_st p)). assert (O3 : forall j, (j < n2)%nat -> w3 j = w2 j) by (intros j L; now apply deepcopy_old).
      eexists _, (S i), false. split; [reflexivity|]. split; cbn [p_w p_st p_prev p_best p_next p_prevE p_bestE].
      * apply deepcopy_sound; [exact SO2|]. intros h Hh. specialize (IDS h Hh). lia.
      * intros j L. rewrite O3, O2 by lia. now apply SK1.
      * lia.
      * exact ND.
      * intros j Hj. destruct (ST1 j Hj). split; [lia|]. rewrite O3, O2 by lia. assumption.
      * intros j Hj. destruct (P2 j Hj). split; [lia|]. rewrite O3 by lia. assumption.
      * intros j Hj. apply in_seq in Hj. lia.
      * lia.
      * destruct MI as (_ & M3). split; [exists (S i); split; [lia|exact CE]|]. intros m Hm. destruct (Nat.eq_dec m (S i)) as [-> | N]; [rewrite CE; apply Qle_refl|].
        specialize (M3 m ltac:(lia)). lra.
      * split; [exact ES|]. split; [intros j L; rewrite O3, O2 by lia; now apply AG1|]. split; [exact CE|]. split; [reflexivity|exact NR'].
    + apply Qltb_ge in BB. eexists _, k1, done. split; [reflexivity|]. split; cbn [p_w p_st p_prev p_best p_next p_prevE p_bestE].
      * exact SO2.
      * intros j L. rewrite O2 by lia. now apply SK1.
      * lia.
      * exact ND.
      * intros j Hj. destruct (ST1 j Hj). split; [lia|]. rewrite O2 by lia. assumption.
      * exact P2.
      * intros j Hj. specialize (BE j Hj). lia.
      * exact KL.
      * destruct done; [destruct NET as [-> _]; exact MI|]. destruct (NR eq_refl) as [-> _]. destruct PH as (_ & _ & _ & -> & _).
        destruct MI as ((m & M1 & M2) & M3). split; [exists m; split; [lia|exact M2]|]. intros m' Hm'.
        destruct (Nat.eq_dec m' (S i)) as [-> | N]; [lra|apply M3; lia].
      * destruct done.
        -- destruct NET as [-> SN]. destruct PH as (HI & _ & RX). split; [exact HI|]. split; [|exact RX].
           apply (same_trans_l next _ w1 _ SN). intros j L. rewrite O2 by lia. reflexivity.
        -- destruct (NR eq_refl) as [-> NR']. destruct NET as [_ AG1]. destruct PH as (ES & _). split; [exact ES|].
           split; [intros j L; rewrite O2 by lia; now apply AG1|]. split; [exact CE|]. split; [reflexivity|exact NR'].
Qed.

Lemma loop_inv : forall n i p k done, inv i p k done ->
  exists p' k' done', pan_loop (S (S f)) cost n (fun m => ds (i + m)%nat) (fun m => acc (i + m)%nat) p = Ok p' /\ inv (i + n) p' k' done'.
Proof.
  induction n as [|n IH]; intros i p k done H; cbn [pan_loop].
  - exists p, k, done. split; [reflexivity|]. now rewrite Nat.add_0_r.
  - destruct (step_inv i p k done H) as (p1 & k1 & d1 & E & H1). rewrite Nat.add_0_r, E. cbn [rbind].
    destruct (IH (S i) p1 k1 d1 H1) as (p' & k' & d' & E' & H'). exists p', k', d'. rewrite Nat.add_succ_r. split; [|exact H'].
    rewrite <- E'. clear. revert p1. generalize (i) as a. intros a p1.
    assert (X : forall m, (a + S m)%nat = (S a + m)%nat) by (intros; lia).
    assert (EXT : forall n p d1 d2 a1 a2, (forall m, d1 m = d2 m) -> (forall m, a1 m = a2 m) ->
       pan_loop (S (S f)) cost n d1 a1 p = pan_loop (S (S f)) cost n d2 a2 p).
    { clear. induction n as [|n IH]; intros p d1 d2 a1 a2 HD HA; cbn [pan_loop]; [reflexivity|]. rewrite HD, HA.
      destruct (pan_step _ _ _ _ _); cbn [rbind]; [|reflexivity]. apply IH; intros; auto. }
    apply EXT; intros m; now rewrite X.
Qed.
End Run.

(** ** C78 *)
(** The annealing equalizer never raises, and it leaves behind the network of trial [k], where [k] is the number of the
    first rejected perturbation (or the number of steps if none is rejected) - not the state it returns, and
    whatever happens in the remaining steps.  The returned cost is the smallest loss among the trials 0..k; the
    returned node objects are copies, none of them belongs to the network. *)
Theorem C78_what_is_left : forall next ls w0 ts cost f n ds acc,
  settled next ls w0 -> tunable next ls w0 ts -> loss_of_network next cost -> (forall t k, fair_draw (ds t k)) ->
  exists tr w' objs c k, trials (S (S f)) w0 ts ds tr /\
    pan_optimize (S (S f)) cost n w0 next ts ds acc = Ok (w', objs, c) /\
    same_network next (tr k) w' /\ (cost w' == cost (tr k))%Q /\ (forall j, In j objs -> (next <= j)%nat) /\
    is_min cost tr k c /\
    ((k = n /\ forall i, (i < n)%nat -> ~ rejected cost acc tr i) \/
     (exists m, k = S m /\ (m < n)%nat /\ rejected cost acc tr m /\ forall i, (i < m)%nat -> ~ rejected cost acc tr i)).
Proof.
  intros next ls w0 ts cost f n ds acc SE TU LO FD.
  destruct (loop_inv next ls w0 ts cost f ds acc SE TU LO FD n O _ _ _ (init_inv next ls w0 ts cost f ds acc SE TU)) as (p & k & d & E & H).
  exists (tr w0 ts f ds), (deepcopy (p_w p) (p_next p) (p_best p)), (p_best p), (p_bestE p), k.
  split. { split; [reflexivity|]. intros m. apply (proj1 (tr_step next ls w0 ts f ds SE TU FD m)). }
  split. { unfold pan_optimize. change (fun m => ds (0 + m)%nat) with ds in E. change (fun m => acc (0 + m)%nat) with acc in E. rewrite E. reflexivity. }
  destruct H as [SO SK NX ND ST PR BE KI MI PH].
  assert (AG : agree next (p_w p) (deepcopy (p_w p) (p_next p) (p_best p))) by (intros j L; symmetry; apply deepcopy_old; lia).
  assert (SN : same_network next (tr w0 ts f ds k) (deepcopy (p_w p) (p_next p) (p_best p))).
  { apply (same_trans_l next _ (p_w p)); [|exact AG]. destruct d; [apply PH|apply agree_same; apply PH]. }
  split; [exact SN|]. split; [symmetry; now apply LO|]. split; [intros j Hj; now apply BE|]. split; [exact MI|].
  destruct d.
  - right. destruct PH as (_ & _ & m & -> & R & NR). exists m. split; [reflexivity|]. split; [lia|]. split; assumption.
  - left. destruct PH as (_ & _ & _ & -> & NR). split; [reflexivity|exact NR].
Qed.

(** As soon as one perturbation is rejected - in whichever of the steps - the cost the equalizer returns is strictly
    smaller than the loss of the network it leaves behind: the improvement it reports is not in the network. *)
Theorem C78_reported_cost_is_not_the_networks : forall next ls w0 ts cost f n ds acc tr i,
  settled next ls w0 -> tunable next ls w0 ts -> loss_of_network next cost -> (forall t k, fair_draw (ds t k)) ->
  trials (S (S f)) w0 ts ds tr -> (i < n)%nat -> rejected cost acc tr i ->
  exists w' objs c, pan_optimize (S (S f)) cost n w0 next ts ds acc = Ok (w', objs, c) /\ (c < cost w')%Q.
Proof.
  intros next ls w0 ts cost f n ds acc tr i SE TU LO FD [T0 TS] LI RI.
  destruct (C78_what_is_left next ls w0 ts cost f n ds acc SE TU LO FD) as (tr' & w' & objs & c & k & [T0' TS'] & E & SN & CE & _ & MI & D).
  assert (EQ : forall j, tr' j = tr j). { induction j as [|j IH]; [congruence|]. specialize (TS j). specialize (TS' j). rewrite IH in TS'. congruence. }
  exists w', objs, c. split; [exact E|].
  destruct D as [[-> NR]|(m & -> & LM & [R1 _] & _)].
  - exfalso. apply (NR i LI). destruct RI as [R1 R2]. split; [rewrite !EQ; exact R1|exact R2].
  - destruct MI as (_ & M). specialize (M m (le_S _ _ (le_n m))). lra.
Qed.
(** In particular a first perturbation that is rejected leaves a network strictly worse than the one it was given
    (compare C35_best_state: the best-first equalizer never does). *)
Theorem C78_first_move_rejected_makes_it_worse : forall next ls w0 ts cost f n ds acc tr,
  settled next ls w0 -> tunable next ls w0 ts -> loss_of_network next cost -> (forall t k, fair_draw (ds t k)) ->
  trials (S (S f)) w0 ts ds tr -> (0 < n)%nat -> rejected cost acc tr O ->
  exists w' objs c, pan_optimize (S (S f)) cost n w0 next ts ds acc = Ok (w', objs, c) /\
    (c == cost w0)%Q /\ (cost w0 < cost w')%Q /\ same_network next (tr 1%nat) w'.
Proof.
  intros next ls w0 ts cost f n ds acc tr SE TU LO FD [T0 TS] LI RI.
  destruct (C78_what_is_left next ls w0 ts cost f n ds acc SE TU LO FD) as (tr' & w' & objs & c & k & [T0' TS'] & E & SN & CE & _ & MI & D).
  assert (EQ : forall j, tr' j = tr j). { induction j as [|j IH]; [congruence|]. specialize (TS j). specialize (TS' j). rewrite IH in TS'. congruence. }
  assert (RI' : rejected cost acc tr' O). { destruct RI as [R1 R2]. split; [rewrite !EQ; exact R1|exact R2]. }
  exists w', objs, c. split; [exact E|].
  destruct D as [[-> NR]|(m & -> & LM & R & NR)]; [exfalso; exact (NR O LI RI')|].
  destruct m as [|m]; [|exfalso; apply (NR O); [lia|exact RI']].
  destruct R as [R1 _]. rewrite T0' in R1. destruct MI as ((j & M1 & M2) & M3). assert (M0 := M3 O (Nat.le_0_l _)). rewrite T0' in M0.
  split; [|split; [lra|rewrite <- EQ; exact SN]].
  destruct j as [|j]; [rewrite M2, T0'; reflexivity|]. replace j with O in M2 by lia. lra.
Qed.

(** Without a rejection the network is the last trial, which need not be the best one either. *)
Theorem C78_no_rejection : forall next ls w0 ts cost f n ds acc tr,
  settled next ls w0 -> tunable next ls w0 ts -> loss_of_network next cost -> (forall t k, fair_draw (ds t k)) ->
  trials (S (S f)) w0 ts ds tr -> (forall i, (i < n)%nat -> ~ rejected cost acc tr i) ->
  exists w' objs c, pan_optimize (S (S f)) cost n w0 next ts ds acc = Ok (w', objs, c) /\
    same_network next (tr n) w' /\ is_min cost tr n c /\ ((c == cost w')%Q <-> forall i, (i <= n)%nat -> (cost w' <= cost (tr i))%Q).
Proof.
  intros next ls w0 ts cost f n ds acc tr SE TU LO FD [T0 TS] NRJ.
  destruct (C78_what_is_left next ls w0 ts cost f n ds acc SE TU LO FD) as (tr' & w' & objs & c & k & [T0' TS'] & E & SN & CE & _ & MI & D).
  assert (EQ : forall j, tr' j = tr j). { induction j as [|j IH]; [congruence|]. specialize (TS j). specialize (TS' j). rewrite IH in TS'. congruence. }
  assert (KN : k = n). { destruct D as [[-> _]|(m & _ & LM & R & _)]; [reflexivity|]. exfalso. apply (NRJ m LM). destruct R as [R1 R2]. split; [rewrite <- !EQ; exact R1|exact R2]. }
  subst k. exists w', objs, c. split; [exact E|]. split; [rewrite <- EQ; exact SN|].
  assert (MI' : is_min cost tr n c).
  { destruct MI as ((j & M1 & M2) & M3). split; [exists j; split; [exact M1|rewrite <- EQ; exact M2]|]. intros i Hi. rewrite <- EQ. now apply M3. }
  split; [exact MI'|]. destruct MI' as ((j & M1 & M2) & M3). split.
  - intros EC i Hi. specialize (M3 i Hi). lra.
  - intros A. specialize (A j M1). specialize (M3 n (le_n n)). rewrite CE, EQ in A |- *. lra.
Qed.

(** The steps after the first rejection are wasted: more steps, and whatever they draw or accept, change neither the
    cost nor the network. *)
Theorem C78_later_steps_are_wasted : forall next ls w0 ts cost f n n' ds ds' acc acc' tr m,
  settled next ls w0 -> tunable next ls w0 ts -> loss_of_network next cost ->
  (forall t k, fair_draw (ds t k)) -> (forall t k, fair_draw (ds' t k)) ->
  trials (S (S f)) w0 ts ds tr -> rejected cost acc tr m -> (m < n)%nat -> (m < n')%nat ->
  (forall t, (t <= m)%nat -> ds' t = ds t /\ acc' t = acc t) ->
  exists w1 o1 c1 w2 o2 c2, pan_optimize (S (S f)) cost n w0 next ts ds acc = Ok (w1, o1, c1) /\
    pan_optimize (S (S f)) cost n' w0 next ts ds' acc' = Ok (w2, o2, c2) /\ (c1 == c2)%Q /\ (cost w1 == cost w2)%Q.
Proof.
  intros next ls w0 ts cost f n n' ds ds' acc acc' tr m SE TU LO FD FD' [T0 TS] RJ L L' SM.
  destruct (C78_what_is_left next ls w0 ts cost f n ds acc SE TU LO FD) as (t1 & w1 & o1 & c1 & k1 & [A0 AS] & E1 & S1 & C1 & _ & M1 & D1).
  destruct (C78_what_is_left next ls w0 ts cost f n' ds' acc' SE TU LO FD') as (t2 & w2 & o2 & c2 & k2 & [B0 BS] & E2 & S2 & C2 & _ & M2 & D2).
  assert (EQ1 : forall j, t1 j = tr j). { induction j as [|j IH]; [congruence|]. specialize (TS j). specialize (AS j). rewrite IH in AS. congruence. }
  assert (EQ2 : forall j, (j <= S m)%nat -> t2 j = tr j).
  { induction j as [|j IH]; intros Hj; [congruence|]. specialize (TS j). specialize (BS j). rewrite IH in BS by lia. rewrite (proj1 (SM j ltac:(lia))) in BS. congruence. }
  assert (R1 : forall j, rejected cost acc t1 j <-> rejected cost acc tr j) by (intros j; unfold rejected; rewrite !EQ1; tauto).
  assert (R2 : forall j, (j <= m)%nat -> rejected cost acc' t2 j <-> rejected cost acc tr j).
  { intros j Hj. unfold rejected. rewrite !EQ2 by lia. rewrite (proj2 (SM j Hj)). tauto. }
  assert (K1 : exists a, k1 = S a /\ (a <= m)%nat /\ rejected cost acc tr a /\ forall i, (i < a)%nat -> ~ rejected cost acc tr i).
  { destruct D1 as [[-> NR]|(a & -> & La & R & NR)]; [exfalso; apply (NR m L), R1, RJ|]. exists a. split; [reflexivity|].
    assert (a <= m)%nat. { destruct (le_lt_dec a m) as [X|X]; [exact X|]. exfalso. apply (NR m X), R1, RJ. }
    split; [assumption|]. split; [now apply R1|]. intros i Hi X. apply (NR i Hi), R1, X. }
  assert (K2 : exists a, k2 = S a /\ (a <= m)%nat /\ rejected cost acc tr a /\ forall i, (i < a)%nat -> ~ rejected cost acc tr i).
  { destruct D2 as [[-> NR]|(a & -> & La & R & NR)]; [exfalso; apply (NR m L'), R2, RJ; lia|]. exists a. split; [reflexivity|].
    assert (a <= m)%nat. { destruct (le_lt_dec a m) as [X|X]; [exact X|]. exfalso. apply (NR m X), R2; [lia|exact RJ]. }
    split; [assumption|]. split; [apply R2; assumption|]. intros i Hi X. apply (NR i Hi), R2; [lia|exact X]. }
  destruct K1 as (a & -> & La & Ra & Na), K2 as (b & -> & Lb & Rb & Nb).
  assert (a = b). { destruct (lt_eq_lt_dec a b) as [[X|X]|X]; [exfalso; exact (Nb a X Ra)|exact X|exfalso; exact (Na b X Rb)]. } subst b.
  exists w1, o1, c1, w2, o2, c2. split; [exact E1|]. split; [exact E2|]. split.
  - destruct M1 as ((i & I1 & I2) & I3), M2 as ((j & J1 & J2) & J3).
    assert (X := I3 j J1). assert (Y := J3 i I1). rewrite EQ1 in I2, X. rewrite EQ2 in J2, Y by lia. lra.
  - rewrite C1, C2, EQ1, EQ2 by lia. reflexivity.
Qed.

(** Concrete run on the example network of C35: every step's annealing test fails, the loss is 0 to start with; one
    step is rejected, the reported cost is 0, and the network left behind has a positive loss. *)
Example C78_example :
  let st := build_net ex_input ex_specs in
  settled (w_next st) (w_layers st) (w_nodes st) /\ tunable (w_next st) (w_layers st) (w_nodes st) (layer_nodes 0 true) /\
  loss_of_network (w_next st) ex_loss /\ (forall t k, fair_draw (ex_draws t k)) /\
  exists w' objs c, pan_optimize 2 ex_loss 3 (w_nodes st) (w_next st) (layer_nodes 0 true) ex_draws (fun _ => false) = Ok (w', objs, c) /\
    (c == 0)%Q /\ (0 < ex_loss w')%Q /\ codes (w' 1%nat) <> codes (w_nodes st 1%nat).
Proof.
  cbv zeta. destruct C35_example as (F & FI & FS & LO & FD & _).
  destruct (C35_dense_networks_settled ex_input ex_specs (proj1 (one_ok _ _ _)) (proj2 (one_ok _ _ _)) F FI FS) as (_ & SE & TU).
  split; [exact SE|]. split. { apply TU; [repeat constructor; cbn; intuition congruence|]. intros i [<- |[<- |[<- |[]]]]; split; (vm_compute; lia) || (vm_compute; discriminate). }
  split; [exact LO|]. split; [exact FD|].
  assert (X : match pan_optimize 2 ex_loss 3 (w_nodes (build_net ex_input ex_specs)) (w_next (build_net ex_input ex_specs)) (layer_nodes 0 true) ex_draws (fun _ => false) with
    | Ok (w', objs, c) => Some (Qeq_bool c 0, Qltb 0 (ex_loss w'), if list_eq_dec Z.eq_dec (codes (w' 1%nat)) (codes (w_nodes (build_net ex_input ex_specs) 1%nat)) then true else false) | _ => None end = Some (true, true, false)) by (vm_compute; reflexivity).
  destruct (pan_optimize _ _ _ _ _ _ _ _) as [[[w' objs] c]|]; [|discriminate]. exists w', objs, c. split; [reflexivity|].
  destruct (list_eq_dec _ _ _) as [|NE]; [congruence|].
  split; [apply Qeq_bool_eq; congruence|]. split; [apply Qltb_lt; congruence|exact NE].
Qed.
