(** Lemmas for PropPipe.v *)
From Verif Require Import Base BaseProofs DtypeModel DtypeProofs QuantModel QuantProofs LutModel LutProofs FcModel FcProofs FcLayer
  EngineModel EngineProofs DistModel DistProofs BuildModel PipeModel PropCore PropFc PropEngine PropDist PropNodeLut PipeSpec.
From Verif Require NodeModel.
From Coq Require Import Lqa Qminmax.
Open Scope Z_scope.
Open Scope list_scope.

(** ** Calibration always succeeds *)
Lemma all_eq_dec (x : Q) a : (exists y, In y a /\ ~ (y == x)%Q) \/ (forall y, In y a -> (y == x)%Q).
Proof.
  induction a as [|y a [(z & Hz & N)|IH]].
  - right. intros ? [].
  - left. exists z. split; [now right|exact N].
  - destruct (Qeq_dec y x) as [E|N].
    + right. intros z [<- | Hz]; auto.
    + left. exists y. split; [now left|exact N].
Qed.
Lemma calib_total a : a <> [] -> exists d lo hi, calibrate a = Ok d /\ reports d lo hi /\ (lo < hi)%Q /\
  forall x, In x a -> (lo <= x <= hi)%Q.
Proof.
  intros NE. destruct a as [|x r] eqn:EA; [congruence|]. rewrite <- EA in *. clear NE.
  destruct (all_eq_dec x a) as [(y & Hy & N)|H].
  - assert (Hx : In x a) by (rewrite EA; now left).
    assert (G : exists u v, In u a /\ In v a /\ (u < v)%Q).
    { destruct (Q_dec x y) as [[X|X]|X]; [exists x, y|exists y, x|symmetry in X; contradiction]; repeat split; assumption. }
    destruct G as (u & v & Hu & Hv & L).
    destruct (C28_unsliced_range a 512 true u v ltac:(lia) Hu Hv L) as (d & lo & hi & E & R & [_ A] & [_ B]).
    exists d, lo, hi. split; [exact E|]. split; [exact R|]. split.
    + pose proof (A u Hu). pose proof (B v Hv). lra.
    + intros z Hz. split; [apply A, Hz|apply B, Hz].
  - destruct (C28_constant_range x a 512 true ltac:(lia) ltac:(rewrite EA; discriminate) H) as (d & lo & hi & E & R & A & B).
    exists d, lo, hi. split; [exact E|]. split; [exact R|]. split; [lra|].
    intros z Hz. specialize (H z Hz). split; lra.
Qed.
Lemma hull_range a lo hi v : (forall x, In x a -> (lo <= x <= hi)%Q) -> in_hull a v -> (Qmin lo 0 <= v <= Qmax hi 0)%Q.
Proof.
  intros H (x & y & [<- | Hx] & [<- | Hy] & A & B).
  - split; [eapply Qle_trans; [apply Q.le_min_r|exact A]|eapply Qle_trans; [exact B|apply Q.le_max_r]].
  - split; [eapply Qle_trans; [apply Q.le_min_r|exact A]|].
    eapply Qle_trans; [exact B|]. eapply Qle_trans; [apply H, Hy|apply Q.le_max_l].
  - split; [|eapply Qle_trans; [exact B|apply Q.le_max_r]].
    eapply Qle_trans; [apply Q.le_min_l|]. eapply Qle_trans; [|exact A]. apply H, Hx.
  - split; [eapply Qle_trans; [apply Q.le_min_l|]; eapply Qle_trans; [|exact A]; apply H, Hx|].
    eapply Qle_trans; [exact B|]. eapply Qle_trans; [apply H, Hy|apply Q.le_max_l].
Qed.
Lemma min_lt_max lo hi : (lo < hi)%Q -> (Qmin lo 0 < Qmax hi 0)%Q.
Proof. intros H. destruct (Q.min_spec lo 0) as [[? ->]|[? ->]]; destruct (Q.max_spec hi 0) as [[? ->]|[? ->]]; lra. Qed.

(** a node: positive scale, zero point in its dtype, dtype string readable *)
Record node_ok (n : pnode) (q : gdtype) : Prop := {
  no_dtype : parse_dtype (pn_dtype n) = Ok q; no_narrow : narrow q;
  no_pos : (0 < pn_scale n)%Q; no_zp : in_dtype q (pn_zp n) }.
(** codes xq of node n stand for x up to e *)
Record near (n : pnode) (q : gdtype) (e : Q) (x : list Q) (xq : list Z) : Prop := {
  ne_len : length xq = length x;
  ne_dt : forall v, In v xq -> in_dtype q v;
  ne_err : forall i, (i < length x)%nat -> (Qabs (pn_scale n * inject_Z (nth i xq 0%Z - pn_zp n) - nth i x 0) <= e)%Q }.

(** parameters calibrated on data: real codes of every value in the hull are at most half a code outside the dtype *)
Lemma calib_params a q d : narrow q -> a <> [] -> calibrate a = Ok d ->
  exists s z, dist_quantize d q None None false = Ok (s, z) /\ (0 < s)%Q /\ in_dtype q z /\
    forall v, in_hull a v -> (inject_Z (gmin q) - (1#2) <= real_code v s z <= inject_Z (gmax q) + (1#2))%Q.
Proof.
  intros N NE E. destruct (calib_total a NE) as (d' & lo & hi & E' & R & LH & IN).
  assert (d' = d) by congruence. subst d'.
  pose proof N as (N1 & N2 & N3).
  destruct (asym_params d q false lo hi R (min_lt_max _ _ LH) N2) as (s & z & EQ & SP & _ & Z1 & A & B).
  exists s, z. split; [exact EQ|]. split; [exact SP|]. split; [exact Z1|].
  intros v Hv. apply (hull_range _ _ _ _ IN) in Hv. destruct Hv as [V1 V2].
  apply Qabs_Qle_condition in A. apply Qabs_Qle_condition in B. unfold real_code.
  assert (D1 : (Qmin lo 0 / s <= v / s)%Q) by (apply Qmult_le_compat_r; [exact V1|apply Qlt_le_weak, Qinv_lt_0_compat, SP]).
  assert (D2 : (v / s <= Qmax hi 0 / s)%Q) by (apply Qmult_le_compat_r; [exact V2|apply Qlt_le_weak, Qinv_lt_0_compat, SP]).
  split; lra.
Qed.

(** clamping cannot move a code away from a real code that is at most 1/2 outside the range *)
Lemma clamp_near lo hi v r e : lo <= hi -> (inject_Z lo - (1#2) <= r <= inject_Z hi + (1#2))%Q -> (1#2 <= e)%Q ->
  (Qabs (inject_Z v - r) <= e)%Q -> (Qabs (inject_Z (clamp lo hi v) - r) <= e)%Q.
Proof.
  intros L [R1 R2] E H. apply Qabs_Qle_condition in H. apply Qabs_Qle_condition. unfold clamp.
  destruct (v <? lo) eqn:A; [apply Z.ltb_lt in A; apply Zlt_inj in A; lra|apply Z.ltb_ge in A; apply Zle_inj in A].
  destruct (hi <? v) eqn:B; [apply Z.ltb_lt in B; apply Zlt_inj in B; lra|lra].
Qed.

Lemma scale_dist s z v x e : (0 < s)%Q -> (Qabs (inject_Z v - real_code x s z) <= e / s)%Q ->
  (Qabs (s * inject_Z (v - z) - x) <= e)%Q.
Proof.
  intros P H. unfold real_code in H. rewrite inject_Z_minus.
  setoid_replace (s * (inject_Z v - inject_Z z) - x)%Q with (s * (inject_Z v - (x / s + inject_Z z)))%Q by (field; lra).
  rewrite Qabs_Qmult, (Qabs_pos s) by lra.
  apply Qle_trans with (s * (e / s))%Q; [apply Qmult_le_l; [exact P|exact H]|].
  apply Qle_lteq. right. field. lra.
Qed.
Lemma scale_dist' s z v x e : (0 < s)%Q -> (Qabs (s * inject_Z (v - z) - x) <= e)%Q ->
  (Qabs (inject_Z v - real_code x s z) <= e / s)%Q.
Proof.
  intros P H. unfold real_code. rewrite inject_Z_minus in H.
  apply (Qmult_le_l _ _ s P).
  setoid_replace (s * (e / s))%Q with e by (field; lra).
  rewrite <- (Qabs_pos s) at 1 by lra. rewrite <- Qabs_Qmult.
  setoid_replace (s * (inject_Z v - (x / s + inject_Z z)))%Q with (s * (inject_Z v - inject_Z z) - x)%Q by (field; lra).
  exact H.
Qed.

(** quantizing a value known up to e *)
Lemma quant1_near q s z x x' e : narrow q -> (0 < s)%Q -> (0 <= e)%Q ->
  (inject_Z (gmin q) - (1#2) <= real_code x s z <= inject_Z (gmax q) + (1#2))%Q -> (Qabs (x' - x) <= e)%Q ->
  in_dtype q (quant1 q z s x') /\ (Qabs (s * inject_Z (quant1 q z s x' - z) - x) <= e + s * (1#2))%Q.
Proof.
  intros (N1 & N2 & N3) P E0 R H. unfold quant1. rewrite q_round_clip by exact N1. split; [apply clipZ_range; lia|].
  rewrite <- clamp_clip by lia. apply scale_dist; [exact P|].
  assert (ES : (0 <= e / s)%Q) by (apply Qmult_le_0_compat; [exact E0|apply Qlt_le_weak, Qinv_lt_0_compat, P]).
  assert (EQ : ((e + s * (1 # 2)) / s == e / s + (1#2))%Q) by (field; lra).
  rewrite EQ. apply clamp_near; [lia|exact R|lra|].
  fold (real_code x' s z).
  assert (D : (Qabs (real_code x' s z - real_code x s z) <= e / s)%Q).
  { unfold real_code. setoid_replace (x' / s + inject_Z z - (x / s + inject_Z z))%Q with ((x' - x) * / s)%Q by (field; lra).
    rewrite Qabs_Qmult, (Qabs_pos (/ s)) by (apply Qlt_le_weak, Qinv_lt_0_compat, P).
    apply Qmult_le_compat_r; [exact H|apply Qlt_le_weak, Qinv_lt_0_compat, P]. }
  destruct (Qfloor_bounds (real_code x' s z + (1#2))).
  apply Qabs_Qle_condition in D. apply Qabs_Qle_condition. split; lra.
Qed.

(** ** One fully connected operator on one row *)
Lemma acc_close si zx sw zw (xq w : list Z) bq x wf b ex ew eb : (0 <= ex)%Q -> (0 <= ew)%Q -> length x = length xq ->
  (forall i, (i < length x)%nat -> (Qabs (si * inject_Z (nth i xq 0%Z - zx) - nth i x 0) <= ex)%Q) ->
  (forall i, (i < length x)%nat -> (Qabs (sw * inject_Z (nth i w 0%Z - zw) - nth i wf 0) <= ew)%Q) ->
  (Qabs (si * sw * inject_Z bq - b) <= eb)%Q ->
  (Qabs (si * sw * inject_Z (exact_acc zx zw xq w bq) - dense x wf b) <=
     sumQ_upto (length x) (fun i => ex * Qabs (nth i wf 0) + ew * Qabs (nth i x 0) + ex * ew) + eb)%Q.
Proof.
  intros Pex Pew Lx Hx Hw Hb.
  assert (AC : (si * sw * inject_Z (exact_acc zx zw xq w bq) ==
     sumQ_upto (length x) (fun i => (si * inject_Z (nth i xq 0%Z - zx)) * (sw * inject_Z (nth i w 0%Z - zw))) + si * sw * inject_Z bq)%Q).
  { unfold exact_acc. rewrite inject_Z_plus, Qmult_plus_distr_r. apply Qplus_inj_r.
    unfold sumZ_upto, sumQ_upto, sum_upto. rewrite Lx.
    rewrite <- (sumQ_of_Z (fun i => (nth i xq 0 - zx) * (nth i w 0 - zw)) (seq 0 (length xq)) (si * sw)).
    apply sumQ_map_ext. intros i _. rewrite inject_Z_mult. ring. }
  rewrite AC. unfold dense.
  set (A := sumQ_upto (length x) _). set (B := sumQ_upto (length x) (fun i => nth i x 0 * nth i wf 0)%Q).
  set (C := sumQ_upto (length x) (fun i => _ + _ + _)%Q).
  setoid_replace (A + si * sw * inject_Z bq - (B + b))%Q with ((A - B) + (si * sw * inject_Z bq - b))%Q by ring.
  eapply Qle_trans; [apply Qabs_triangle|]. apply Qplus_le_compat; [|exact Hb].
  unfold A, B, C, sumQ_upto, sum_upto.
  change (fold_right Qplus 0%Q) with sumQ. rewrite <- sumQ_map_minus.
  eapply Qle_trans; [apply Qabs_sum|]. apply sumQ_le. intros i Hi. apply in_seq in Hi.
  apply prod_error; [exact Pex|exact Pew|apply Hx; lia|apply Hw; lia].
Qed.

Lemma sum_abs_bound (f : nat -> Z) B n : (forall i, (i < n)%nat -> Z.abs (f i) <= B) -> Z.abs (sumZ_upto n f) <= Z.of_nat n * B.
Proof.
  intros H. unfold sumZ_upto, sum_upto. change (fold_right Z.add 0) with sumZ.
  assert (G : forall l, (forall i, In i l -> Z.abs (f i) <= B) -> Z.abs (sumZ (map f l)) <= Z.of_nat (length l) * B).
  { induction l as [|i l IH]; intros HL; [reflexivity|]. cbn [map sumZ fold_right length]. fold (sumZ (map f l)).
    specialize (IH ltac:(intros; apply HL; now right)). pose proof (HL i ltac:(now left)). lia. }
  specialize (G (seq 0 n)). rewrite seq_length in G. apply G. intros i Hi. apply H. apply in_seq in Hi. lia.
Qed.
Lemma acc_bound di zx (xq w : list Z) K b : in_dtype di zx -> (forall v, In v xq -> in_dtype di v) ->
  (forall v, In v w -> Z.abs v <= K) -> length w = length xq ->
  Z.abs (exact_acc zx 0 xq w b) <= Z.of_nat (length xq) * ((gmax di - gmin di) * K) + Z.abs b.
Proof.
  intros Hz Hx Hw L. unfold exact_acc.
  assert (S1 : Z.abs (sumZ_upto (length xq) (fun i => (nth i xq 0 - zx) * (nth i w 0 - 0))) <= Z.of_nat (length xq) * ((gmax di - gmin di) * K)).
  { apply sum_abs_bound. intros i Hi. rewrite Z.sub_0_r, Z.abs_mul.
    pose proof (Hx (nth i xq 0) (nth_In _ _ Hi)). assert (Hi' : (i < length w)%nat) by lia. pose proof (Hw (nth i w 0) (nth_In _ _ Hi')).
    unfold in_dtype in *. apply Z.mul_le_mono_nonneg; lia. }
  lia.
Qed.

Lemma fc_row si zx sk so zo d W bias l xq x ex :
  (0 < si)%Q -> (0 < sk)%Q -> (0 < so)%Q -> (0 <= ex)%Q ->
  fc_build si zx sk 0 W bias so zo d = Ok l -> good_shapes W bias xq ->
  narrow d -> in_dtype d zo -> (1 # 1000000 <= si * sk / so)%Q -> length x = length xq ->
  (forall i, (i < length x)%nat -> (Qabs (si * inject_Z (nth i xq 0%Z - zx) - nth i x 0) <= ex)%Q) ->
  exists y, fc_infer l (T1 xq) = Ok (T1 y) /\ length y = length W /\ (forall v, In v y -> in_dtype d v) /\
  forall j (w : list Q) (b ew eb : Q), (j < length W)%nat -> (0 <= ew)%Q ->
    (forall i, (i < length x)%nat -> (Qabs (sk * inject_Z (nth i (nth j W []) 0%Z) - nth i w 0) <= ew)%Q) ->
    (Qabs (si * sk * inject_Z (nth j bias 0%Z) - b) <= eb)%Q ->
    Z.abs (exact_acc zx 0 xq (nth j W []) (nth j bias 0)) <= 2 ^ 31 ->
    (inject_Z (gmin d) - (1#2) <= real_code (dense x w b) so zo <= inject_Z (gmax d) + (1#2))%Q ->
    (Qabs (so * inject_Z (nth j y 0%Z - zo) - dense x w b) <=
       sumQ_upto (length x) (fun i => ex * Qabs (nth i w 0) + ew * Qabs (nth i x 0) + ex * ew)
       + eb + so * (1#2) + si * sk)%Q.
Proof.
  intros Psi Psk Pso Pex Hb Hs N Hzo HM Lx Hx. pose proof N as (N1 & N2 & N3).
  assert (Hz : Z.abs zo <= 2 ^ 62) by (unfold within_int32, in_dtype in *; lia).
  destruct (C15_requantization si zx sk 0 W bias so zo d l xq Hb Hs ltac:(lia) Hz HM) as (y & Y1 & Y2 & Y3).
  exists y. split; [exact Y1|]. split; [exact Y2|]. split.
  { pose proof (C16_range si zx sk 0 W bias so zo d l (T1 xq) (T1 y) Hb ltac:(lia) Y1) as R. exact R. }
  intros j w b ew eb Hj Pew Hw Hbb Hacc HR.
  destruct (Y3 j Hj Hacc) as (v & Hv & Ev). set (acc := exact_acc zx 0 xq (nth j W []) (nth j bias 0)) in *.
  rewrite Hv. set (M := (si * sk / so)%Q) in *.
  assert (MS : (so * M == si * sk)%Q) by (unfold M; field; lra).
  assert (D := acc_close si zx sk 0 xq (nth j W []) (nth j bias 0) x w b ex ew eb Pex Pew Lx Hx).
  fold acc in D. specialize (D ltac:(intros i Hi; rewrite Z.sub_0_r; apply Hw, Hi) Hbb).
  set (S := sumQ_upto (length x) _) in *.
  assert (D0 : (0 <= S + eb)%Q) by (eapply Qle_trans; [apply Qabs_nonneg|exact D]).
  assert (PM : (0 < si * sk)%Q) by nra.
  (* the unclamped code *)
  assert (V : (Qabs (so * inject_Z (v - zo) - dense x w b) <= S + eb + so * (1#2) + si * sk)%Q).
  { setoid_replace (so * inject_Z (v - zo) - dense x w b)%Q
      with (so * (inject_Z v - (inject_Z zo + M * inject_Z acc)) + (si * sk * inject_Z acc - dense x w b))%Q
      by (rewrite <- MS, inject_Z_minus; ring).
    eapply Qle_trans; [apply Qabs_triangle|].
    rewrite Qabs_Qmult, (Qabs_pos so) by lra.
    assert (F : (so * Qabs (inject_Z v - (inject_Z zo + M * inject_Z acc)) <= so * (1#2) + si * sk * (inject_Z (Z.abs acc) * u31))%Q).
    { apply Qle_trans with (so * ((1#2) + inject_Z (Z.abs acc) * (M * u31)))%Q.
      - apply Qmult_le_l; [exact Pso|exact Ev].
      - rewrite <- MS. apply Qle_lteq. right. ring. }
    assert (U : (inject_Z (Z.abs acc) * u31 <= 1)%Q).
    { apply Qle_trans with (inject_Z (2 ^ 31) * u31)%Q; [|discriminate].
      apply Qmult_le_compat_r; [apply (proj1 (Zle_inj _ _)); exact Hacc|discriminate]. }
    assert (U' : (si * sk * (inject_Z (Z.abs acc) * u31) <= si * sk * 1)%Q) by (apply Qmult_le_l; assumption).
    lra. }
  apply scale_dist; [exact Pso|]. apply scale_dist' in V; [|exact Pso].
  apply clamp_near; [lia|exact HR| |exact V].
  assert (X : ((S + eb + so * (1#2) + si * sk) / so == (S + eb + si * sk) / so + (1#2))%Q) by (field; lra).
  rewrite X. assert (0 <= (S + eb + si * sk) / so)%Q; [|lra].
  apply Qmult_le_0_compat; [lra|apply Qlt_le_weak, Qinv_lt_0_compat, Pso].
Qed.

(** ** The exported kernel and bias *)
Lemma quant1_comp q z s x y : within_int32 q -> (0 < s)%Q -> (x == y)%Q -> quant1 q z s x = quant1 q z s y.
Proof.
  intros Hq Hs E. pose proof (quant1_mono q z s x y Hq Hs ltac:(rewrite E; lra)). pose proof (quant1_mono q z s y x Hq Hs ltac:(rewrite E; lra)). lia.
Qed.
Lemma clipQ_id lo hi x : (lo <= x <= hi)%Q -> (clipQ lo hi x == x)%Q.
Proof.
  intros [A B]. unfold clipQ. destruct (Q.max_spec x lo) as [[? ->]|[? ->]]; [lra|].
  destruct (Q.min_spec x hi) as [[? ->]|[? ->]]; lra.
Qed.
Lemma quant_kernel_ok q (sym : bool) w : narrow q -> 0 < gmax q -> (if sym then gmin q <= - gmax q else gmin q = - gmax q - 1) -> concat w <> [] ->
  exists k s m, quant_kernel q sym w = Ok k /\ k = mkpn s 0 (grepr q) [length w; width w] (PMat m) None /\ (0 < s)%Q /\
    Forall2 (Forall2 (fun c x => in_dtype q c /\ (Qabs (s * inject_Z c - x) <= if sym then s * (1#2) else s)%Q)) m w.
Proof.
  intros N P HS NE. pose proof N as (N1 & N2 & N3). destruct (calib_total _ NE) as (d & lo & hi & E & R & LH & IN).
  pose proof (min_lt_max _ _ LH) as HL.
  assert (G : exists s, dist_quantize d q (Some 0) None sym = Ok (s, 0) /\ (0 < s)%Q /\
    forall x, (Qmin lo 0 <= x <= Qmax hi 0)%Q -> (rt_error q s 0 x <= if sym then s * (1#2) else s)%Q).
  { destruct sym.
    - destruct (C27_symmetric d q lo hi N P HS R HL) as (s & A & B & C). exists s. split; [exact A|]. split; [exact B|]. intros x Hx. apply C, Hx.
    - destruct (C27_unsymmetric_one_step d q lo hi N P HS R HL) as (s & A & B & C). exists s. split; [exact A|]. split; [exact B|]. intros x Hx. apply C, Hx. }
  destruct G as (s & EQ & SP & RT). destruct R as [R1 R2].
  eexists _, s, _. split; [unfold quant_kernel; rewrite E; cbn [rbind]; rewrite EQ; cbn [rbind]; rewrite R1, R2; cbn [rbind fst snd]; reflexivity|].
  split; [reflexivity|]. split; [exact SP|].
  assert (H : forall x, In x (concat w) -> in_dtype q (quant1 q 0 s (clipQ lo hi x)) /\
    (Qabs (s * inject_Z (quant1 q 0 s (clipQ lo hi x)) - x) <= if sym then s * (1 # 2) else s)%Q).
  { intros x Hx. pose proof (IN x Hx) as Rx. rewrite (quant1_comp q 0 s _ x N1 SP (clipQ_id _ _ _ Rx)).
    assert (I : in_dt q (quant1 q 0 s x)) by (apply q_round_range; exact N1). split; [exact I|].
    assert (ZN : zp_nowrap q 0) by (unfold zp_nowrap, within_int32 in *; lia).
    assert (Hh : (Qmin lo 0 <= x <= Qmax hi 0)%Q).
    { apply (hull_range (concat w)); [exact IN|]. exists x, x. repeat split; try lra; now right. }
    specialize (RT x Hh). unfold rt_error in RT. rewrite (dequant1_nowrap q) in RT by assumption.
    rewrite Z.sub_0_r in RT. rewrite Qabs_Qminus, Qmult_comm. exact RT. }
  clear -H. induction w as [|r w IH]; [constructor|]. cbn [map]. constructor.
  - assert (Hr : forall x, In x r -> In x (concat (r :: w))) by (intros; cbn [concat]; apply in_or_app; now left).
    revert Hr. generalize (concat (r :: w)) H. clear. intros big H Hr. induction r as [|x r IH]; constructor.
    + apply H, Hr. now left.
    + apply IH. intros y Hy. apply Hr. now right.
  - apply IH. intros x Hx. apply H. cbn [concat]. apply in_or_app. now right.
Qed.
Lemma quant_bias_err q s b : within_int32 q -> (0 < s)%Q -> gmin q < quant1 q 0 s b < gmax q ->
  (Qabs (s * inject_Z (quant1 q 0 s b) - b) <= s * (1#2))%Q.
Proof.
  intros N P. unfold quant1. rewrite q_round_clip by exact N. intros H.
  rewrite <- clamp_clip in * by (unfold within_int32 in N; lia).
  set (v := Qfloor (b / s + inject_Z 0 + (1#2))) in *.
  assert (E : clamp (gmin q) (gmax q) v = v).
  { unfold clamp in *. destruct (v <? gmin q) eqn:A; [lia|]. destruct (gmax q <? v) eqn:B; [lia|reflexivity]. }
  rewrite E. destruct (Qfloor_bounds (b / s + inject_Z 0 + (1#2))) as [F1 F2]. fold v in F1, F2.
  change (inject_Z 0) with 0%Q in *.
  setoid_replace (s * inject_Z v - b)%Q with (s * (inject_Z v - b / s))%Q by (field; lra).
  rewrite Qabs_Qmult, (Qabs_pos s) by lra. apply Qmult_le_l; [exact P|].
  apply Qabs_Qle_condition. split; lra.
Qed.

(** ** Float data *)
Lemma nth_map_seq {A} (f : nat -> A) n i d : (i < n)%nat -> nth i (map f (seq 0 n)) d = f i.
Proof.
  intros H. rewrite nth_indep with (d' := f 0%nat) by (rewrite map_length, seq_length; exact H). rewrite map_nth, seq_nth by exact H. reflexivity.
Qed.
Lemma dotQ_dense x w : length w = length x -> dotQ x w = sumQ_upto (length x) (fun i => nth i x 0 * nth i w 0)%Q.
Proof.
  intros L. unfold dotQ, sumQ_upto, sum_upto. change (fold_right Qplus 0%Q) with sumQ. f_equal.
  apply nth_ext with (d := 0%Q) (d' := 0%Q).
  - rewrite map2_length, map_length, seq_length by lia. reflexivity.
  - intros i Hi. rewrite map2_length in Hi by lia. rewrite map2_nth with (da := 0%Q) (db := 0%Q) by lia.
    rewrite nth_map_seq by lia. reflexivity.
Qed.
Lemma kd_w_length l : length (kd_w l) = kd_units l.
Proof. unfold kd_w, transpose. rewrite map_length, seq_length. reflexivity. Qed.
Lemma kd_w_nth l j d : (j < kd_units l)%nat -> nth j (kd_w l) d = column j (kd_kernel l).
Proof.
  intros H. unfold kd_w, transpose. rewrite nth_map_seq by exact H. reflexivity.
Qed.
Definition layer_shaped (n : nat) (l : kdense) : Prop :=
  (0 < n)%nat /\ (0 < kd_units l)%nat /\ length (kd_kernel l) = n /\ (forall row, In row (kd_kernel l) -> length row = kd_units l) /\
  (forall b, kd_bias l = Some b -> length b = kd_units l).
Lemma kd_b_length n l : layer_shaped n l -> length (kd_b l) = kd_units l.
Proof. intros (_ & _ & _ & _ & H). unfold kd_b. destruct (kd_bias l); [now apply H|]. rewrite repeat_length. apply kd_w_length. Qed.
Lemma kd_b_nth n l j : layer_shaped n l -> (j < kd_units l)%nat -> nth j (kd_b l) 0%Q = bias_at l j.
Proof.
  intros Sh H. unfold kd_b, bias_at. destruct (kd_bias l); [reflexivity|]. apply nth_repeat.
Qed.
Lemma affine_length l x : length (affine l x) = kd_units l.
Proof. unfold affine. now rewrite map_length, seq_length. Qed.
Lemma affine_nth l x j : (j < kd_units l)%nat -> nth j (affine l x) 0%Q = dense x (column j (kd_kernel l)) (bias_at l j).
Proof.
  intros H. unfold affine. rewrite nth_map_seq by exact H. reflexivity.
Qed.
Lemma preact_affine n l x : layer_shaped n l -> length x = n -> preact l x = affine l x.
Proof.
  intros Sh Lx. pose proof Sh as (_ & _ & LK & _ & _).
  assert (LB : length (kd_w l) = length (kd_b l)) by (rewrite kd_w_length; symmetry; eapply kd_b_length, Sh).
  apply nth_ext with (d := 0%Q) (d' := 0%Q).
  - unfold preact. rewrite map2_length by exact LB. rewrite kd_w_length, affine_length. reflexivity.
  - intros j Hj. unfold preact in Hj. rewrite map2_length in Hj by exact LB. rewrite kd_w_length in Hj.
    rewrite affine_nth by exact Hj. unfold preact. rewrite map2_nth with (da := []) (db := 0%Q) by (exact LB || (rewrite kd_w_length; exact Hj)).
    rewrite kd_w_nth by exact Hj. rewrite (kd_b_nth n) by assumption. unfold dense.
    rewrite dotQ_dense; [reflexivity|]. unfold column. rewrite map_length. lia.
Qed.
Lemma float_layer_length l x : length (float_layer l x) = kd_units l.
Proof. unfold float_layer. destruct (is_table l); rewrite ?map_length; apply affine_length. Qed.

Lemma sumQ_upto_split n (f g : nat -> Q) : (sumQ_upto n (fun i => f i + g i) == sumQ_upto n f + sumQ_upto n g)%Q.
Proof. unfold sumQ_upto, sum_upto. apply (sumQ_map_plus f g (seq 0 n)). Qed.
Lemma sumQ_upto_scale n c (f : nat -> Q) : (sumQ_upto n (fun i => c * f i) == c * sumQ_upto n f)%Q.
Proof. unfold sumQ_upto, sum_upto. apply (sumQ_map_mult c f (seq 0 n)). Qed.
Lemma sumQ_upto_const n c : (sumQ_upto n (fun _ => c) == inject_Z (Z.of_nat n) * c)%Q.
Proof.
  unfold sumQ_upto, sum_upto. change (fold_right Qplus 0%Q) with sumQ.
  assert (G : forall l : list nat, (sumQ (map (fun _ => c) l) == inject_Z (Z.of_nat (length l)) * c)%Q).
  { induction l as [|a l IH]; [cbn; ring|]. cbn [map sumQ fold_right length]. fold (sumQ (map (fun _ : nat => c) l)). rewrite IH.
    rewrite Nat2Z.inj_succ. unfold Z.succ. rewrite inject_Z_plus. ring. }
  rewrite G, seq_length. reflexivity.
Qed.
Lemma abssum_upto x n : length x = n -> abssum x = sumQ_upto n (fun i => Qabs (nth i x 0%Q)).
Proof.
  intros <-. unfold abssum, sumQ_upto, sum_upto. change (fold_right Qplus 0%Q) with sumQ. f_equal.
  apply nth_ext with (d := 0%Q) (d' := 0%Q); [now rewrite !map_length, seq_length|].
  intros i Hi. rewrite map_length in Hi.
  rewrite nth_indep with (d' := Qabs 0) by (rewrite map_length; exact Hi). rewrite map_nth.
  rewrite nth_map_seq by exact Hi. reflexivity.
Qed.
Lemma fold_max_in l v : In v l -> (v <= fold_right Qmax 0 l)%Q.
Proof.
  induction l as [|a l IH]; [intros []|]. intros [<- | H]; cbn [fold_right]; [apply Q.le_max_l|].
  eapply Qle_trans; [apply IH, H|apply Q.le_max_r].
Qed.
Lemma wsum_ge l j : (j < kd_units l)%nat -> (abssum (column j (kd_kernel l)) <= wsum l)%Q.
Proof. intros H. apply fold_max_in. apply in_map_iff. exists j. split; [reflexivity|]. apply in_seq. lia. Qed.

(** ** What the quantizer exports for one layer *)
Lemma concat_ne {A} (m : list (list A)) n : m <> [] -> (0 < n)%nat -> (forall r, In r m -> length r = n) -> concat m <> [].
Proof. destruct m as [|r m]; [congruence|]. intros _ H L. specialize (L r ltac:(now left)). destruct r; cbn in *; [lia|discriminate]. Qed.
Lemma kd_w_ne n l : layer_shaped n l -> concat (kd_w l) <> [].
Proof.
  intros Sh. pose proof Sh as (Hn & Hu & LK & _ & _). apply concat_ne with (n := n); [|exact Hn|].
  - intros E. pose proof (kd_w_length l) as L. rewrite E in L. cbn in L. lia.
  - intros r Hr. apply In_nth with (d := []) in Hr as (j & Hj & <-). rewrite kd_w_length in Hj. rewrite kd_w_nth by exact Hj.
    unfold column. now rewrite map_length.
Qed.
(** the hull of the data fits the node's codes up to half a code *)
Definition fits_node (n : pnode) (q : gdtype) (data : list Q) : Prop :=
  forall v, in_hull data v -> (inject_Z (gmin q) - (1#2) <= real_code v (pn_scale n) (pn_zp n) <= inject_Z (gmax q) + (1#2))%Q.
Lemma calib_node a q shape : narrow q -> (exists s, parse_dtype s = Ok q) -> a <> [] ->
  exists d s z, calibrate a = Ok d /\ dist_quantize d q None None false = Ok (s, z) /\
   let n := mkpn s z (grepr q) shape PNone None in node_ok n q /\ fits_node n q a.
Proof.
  intros N [str Hs] NE. destruct (calib_total a NE) as (d & _ & _ & E & _).
  destruct (calib_params a q d N NE E) as (s & z & EQ & P & Z1 & H).
  exists d, s, z. split; [exact E|]. split; [exact EQ|]. split; [|exact H].
  constructor; cbn [pn_dtype pn_scale pn_zp]; try assumption. apply C06_str_roundtrip in Hs. apply Hs.
Qed.

Lemma plain_facts l : plain_act l -> is_table l = false /\ mem (upper (kd_act l)) SKIP_FUNCTIONS = true /\ fused_of (kd_act l) = FNone.
Proof. unfold is_table, fused_of. intros [-> | ->]; repeat split. Qed.
Lemma table_facts l : table_act l -> is_table l = true /\ mem (upper (kd_act l)) SKIP_FUNCTIONS = false /\
  mem (upper (kd_act l)) LUT_FUNCTIONS = true /\ fused_of (kd_act l) = FNone /\
  exists k, build_layer_kind (upper (kd_act l) ++ str "LUT") = Ok k /\ (k = KTanhLUT \/ k = KSigmoidLUT).
Proof. unfold is_table, fused_of. intros [-> | ->]; repeat split; eexists; (split; [vm_compute; reflexivity|auto]). Qed.

Definition fc_oper (l : kdense) (inp k b ba : pnode) : jop pbody :=
  mkjop (str "FULLY_CONNECTED") (str "fully_connected " ++ kd_name l) (mkpb [inp; k; b] [ba]).

(** shape of what pipe_dense returns *)
Record dense_export (l : kdense) (qk q qb : gdtype) (sym : bool) (inp : pnode) (data : list (list Q))
    (ops : list (jop pbody)) (out : pnode) : Prop := {
  de_nodes : exists sk m ba, (0 < sk)%Q /\
      Forall2 (Forall2 (fun c x => in_dtype qk c /\ (Qabs (sk * inject_Z c - x) <= if sym then sk * (1#2) else sk)%Q)) m (kd_w l) /\
      node_ok ba q /\ fits_node ba q (concat (map (affine l) data)) /\ pn_lut ba = None /\
      let k := mkpn sk 0 (grepr qk) [length (kd_w l); width (kd_w l)] (PMat m) None in
      let b := quant_bias qb (pn_scale inp) sk (kd_b l) in
      if is_table l then
        exists os oz, let o := mkpn os oz (grepr q) [kd_units l] PNone None in
          let ba' := attach_lut ba q (kd_fn l) os oz in
          node_ok o q /\ fits_node o q (concat (map (float_layer l) data)) /\ out = o /\
          ops = [fc_oper l inp k b ba'; mkjop (upper (kd_act l) ++ str "LUT") (upper (kd_act l) ++ str "LUT") (mkpb [ba'] [o])]
      else out = ba /\ ops = [fc_oper l inp k b ba] }.

Lemma pipe_dense_ok c l inp data d qk q qb n :
  layer_cfg c (kd_name l) = CDense d -> good_cfg d qk q qb -> plain_act l \/ table_act l -> layer_shaped n l ->
  data <> [] -> (forall r, In r data -> length r = n) ->
  exists ops out, pipe_dense (layer_cfg c (kd_name l)) l inp data = Ok (ops, out, map (float_layer l) data) /\
    dense_export l qk q qb (d_sym d) inp data ops out.
Proof.
  intros EC G HA Sh NE LD. rewrite EC. destruct G as [Gopt Gk Ga Gba Gb Nk N Nb Gpos Gsym].
  assert (PA : map (preact l) data = map (affine l) data).
  { apply map_ext_in. intros r Hr. apply (preact_affine n); [exact Sh|apply LD, Hr]. }
  assert (NA : concat (map (affine l) data) <> []).
  { pose proof Sh as (_ & Hu & _). apply concat_ne with (n := kd_units l); [destruct data; [congruence|discriminate]|exact Hu|].
    intros r Hr. apply in_map_iff in Hr as (x & <- & _). apply affine_length. }
  destruct (quant_kernel_ok qk (d_sym d) (kd_w l) Nk Gpos Gsym (kd_w_ne n l Sh)) as (k & sk & m & EK & Ek & Psk & FM).
  destruct (calib_node _ q [width data] N (ex_intro _ _ Gba) NA) as (dd & s & z & E1 & E2 & NO & FN).
  set (ba := mkpn s z (grepr q) [width data] PNone None) in *.
  assert (FU : fused_of (kd_act l) = FNone) by (destruct HA as [H|H]; [apply plain_facts in H|apply table_facts in H]; apply H).
  assert (EB : quant_bias_add q (kd_act l) data (map (affine l) data) = Ok ba).
  { unfold quant_bias_add. rewrite E1. cbn [rbind]. rewrite FU. cbn [fused_trim rbind]. rewrite E2. reflexivity. }
  unfold pipe_dense. rewrite Gk, Ga, Gba, Gb. cbn [rbind]. rewrite EK. cbn [rbind]. rewrite PA, EB. cbn [rbind]. rewrite Gopt.
  unfold quant_activation. destruct HA as [HP|HT].
  - destruct (plain_facts l HP) as (T1 & T2 & _). rewrite T2. cbn [rbind].
    eexists _, _. split.
    + do 2 f_equal. apply map_ext. intros x. unfold float_layer. now rewrite T1.
    + constructor. exists sk, m, ba. split; [exact Psk|]. split; [exact FM|]. split; [exact NO|]. split; [exact FN|]. split; [reflexivity|].
      rewrite T1. split; [reflexivity|]. rewrite Ek. reflexivity.
  - destruct (table_facts l HT) as (T1 & T2 & T3 & _). rewrite T2, T3.
    assert (FA : map (map (kd_fn l)) (map (affine l) data) = map (float_layer l) data).
    { rewrite map_map. apply map_ext. intros x. unfold float_layer. now rewrite T1. }
    rewrite FA.
    assert (NF : concat (map (float_layer l) data) <> []).
    { pose proof Sh as (_ & Hu & _). apply concat_ne with (n := kd_units l); [destruct data; [congruence|discriminate]|exact Hu|].
      intros r Hr. apply in_map_iff in Hr as (x & <- & _). apply float_layer_length. }
    destruct (calib_node _ q [kd_units l] N (ex_intro _ _ Ga) NF) as (d2 & os & oz & F1 & F2 & NO2 & FN2).
    rewrite F1. cbn [rbind]. rewrite F2. cbn [rbind fst snd].
    eexists _, _. split; [reflexivity|].
    constructor. exists sk, m, ba. split; [exact Psk|]. split; [exact FM|]. split; [exact NO|]. split; [exact FN|]. split; [reflexivity|].
    rewrite T1. exists os, oz. split; [exact NO2|]. split; [exact FN2|].
    assert (WD : width (map (float_layer l) data) = kd_units l).
    { unfold width. destruct data as [|r data]; [congruence|]. cbn [map hd]. apply float_layer_length. }
    rewrite WD, Ek. split; reflexivity.
Qed.

(** ** Engine layers act row by row *)
Definition rowfun := list Z -> res (list Z).
Definition rowwise (ly : layer pval) (g : rowfun) : Prop :=
  forall xs ys, xs <> [] -> (forall x, In x xs -> x <> []) -> Forall2 (fun x y => g x = Ok y) xs ys -> ly (VI xs) = Ok (VI ys).
Inductive chain : list rowfun -> list Z -> list Z -> Prop :=
| ch_nil x : chain [] x x
| ch_cons g gs x y z : x <> [] -> g x = Ok y -> chain gs y z -> chain (g :: gs) x z.
Lemma chain_app gs1 gs2 x y z : chain gs1 x y -> chain gs2 y z -> chain (gs1 ++ gs2) x z.
Proof. induction 1 as [x|g gs x y' z' H E _ IH]; intros C; [exact C|]. cbn [app]. econstructor; eauto. Qed.

Lemma chain_runs lys gs : Forall2 rowwise lys gs -> forall xs ys, xs <> [] -> Forall2 (chain gs) xs ys ->
  exists t, runs lys (VI xs) t (VI ys).
Proof.
  induction 1 as [|ly g lys gs RW _ IH]; intros xs ys NE C.
  - assert (xs = ys) by (clear -C; induction C as [|x y xs ys H _ IH]; [reflexivity|]; inversion H; subst; now f_equal).
    subst. exists []. constructor.
  - assert (M : exists ms, Forall2 (fun x y => g x = Ok y) xs ms /\ Forall2 (chain gs) ms ys /\ (forall x, In x xs -> x <> [])).
    { clear -C. induction C as [|x y xs ys H _ (ms & A & B & D)].
      - exists []. repeat split; try constructor. intros ? [].
      - inversion H; subst. eexists (_ :: ms). split; [constructor; eassumption|]. split; [constructor; assumption|].
        intros u [<- | Hu]; auto. }
    destruct M as (ms & A & B & D).
    destruct (IH ms ys) as (t & R); [|exact B|].
    + intros ->. inversion A; subst. congruence.
    + exists (VI ms :: t). econstructor; [|exact R]. apply RW; assumption.
Qed.

Definition g_fc (l : fc) : rowfun := fun x => match fc_infer l (T1 x) with Ok (T1 y) => Ok y | _ => Err EValueError end.
Lemma g_fc_ok l x y : g_fc l x = Ok y <-> fc_infer l (T1 x) = Ok (T1 y).
Proof.
  unfold g_fc. split; intros H.
  - destruct (fc_infer l (T1 x)) as [[a|a|a]|e]; try discriminate. congruence.
  - rewrite H. reflexivity.
Qed.
Definition g_lut (a : lutact) : rowfun := mapM (fun x => lookup (la_table a) (x + la_offset a)).

(** ** One layer of the exported network *)
Lemma F2_length {A B} (R : A -> B -> Prop) a b : Forall2 R a b -> length a = length b.
Proof. induction 1; cbn; congruence. Qed.
Lemma near_nonneg n q e x xq : near n q e x xq -> x <> [] -> (0 <= e)%Q.
Proof.
  intros [L _ E] NE. destruct x as [|v x]; [congruence|]. specialize (E 0%nat ltac:(cbn; lia)). eapply Qle_trans; [apply Qabs_nonneg|exact E].
Qed.
Lemma fc_builds l sk m inp ba qi q qk qb :
  node_ok inp qi -> node_ok ba q -> (0 < sk)%Q ->
  let k := mkpn sk 0 (grepr qk) [length (kd_w l); width (kd_w l)] (PMat m) None in
  let b := quant_bias qb (pn_scale inp) sk (kd_b l) in
  (pn_scale inp * sk / pn_scale ba < inject_Z (2 ^ 29))%Q ->
  exists lf, fc_build (pn_scale inp) (pn_zp inp) sk 0 m (map (quant1 qb 0 (pn_scale inp * sk)) (kd_b l)) (pn_scale ba) (pn_zp ba) q = Ok lf /\
  exists ly, build_layer ie_builders (fc_oper l inp k b ba) = Ok ly /\ rowwise ly (g_fc lf).
Proof.
  intros NI NB P k b HM.
  destruct (proj2 (C17_buildable_iff (pn_scale inp) (pn_zp inp) sk 0 m (map (quant1 qb 0 (pn_scale inp * sk)) (kd_b l)) (pn_scale ba) (pn_zp ba) q)) as [lf Hlf].
  { split; [pose proof (no_pos _ _ NB); lra|]. eapply Qlt_le_trans; [exact HM|]. discriminate. }
  exists lf. split; [exact Hlf|].
  assert (EM : exists mm, fc_mult_of (pn_scale inp) sk (pn_scale ba) = Ok mm).
  { unfold fc_build in Hlf. destruct (fc_mult_of _ _ _) as [mm|]; [eauto|discriminate]. }
  destruct EM as [mm EM].
  eexists. split.
  - unfold build_layer, fc_oper. cbn [jo_type jo_body].
    assert (build_layer_kind (str "FULLY_CONNECTED") = Ok KFullyConnected) as -> by (vm_compute; reflexivity).
    cbn [rbind ie_builders b_tflite]. unfold ie_fc. cbn [pb_in pb_out].
    change (py_index [inp; k; b] 0) with (Ok inp). change (py_index [inp; k; b] 1) with (Ok k). change (py_index [inp; k; b] 2) with (Ok b).
    change (py_index [ba] 0) with (Ok ba). cbn [rbind]. unfold k, b, quant_bias. cbn [pn_tensor pn_scale pn_zp].
    rewrite EM. cbn [rbind]. rewrite (no_dtype _ _ NB). cbn [rbind]. rewrite Hlf. cbn [rbind]. reflexivity.
  - intros xs ys _ _ F. cbn [asI].
    assert (fc_infer lf (T2 xs) = Ok (T2 ys)) as ->; [|reflexivity].
    apply C16_batch_is_rowwise. clear -F. induction F; constructor; auto. now apply g_fc_ok.
Qed.

Lemma dense_step c L D l qk q qb d qi inp data ops out n :
  layer_cfg c (kd_name l) = CDense d -> good_cfg d qk q qb -> plain_act l \/ table_act l -> layer_shaped n l ->
  node_ok inp qi -> dense_export l qk q qb (d_sym d) inp data ops out -> Forall fc_op_ok ops ->
  (table_act l -> lipschitz L D l) ->
  exists lys gs, mapM (build_layer ie_builders) ops = Ok lys /\ Forall2 rowwise lys gs /\ node_ok out q /\
    forall x xq e, near inp qi e x xq -> length x = n ->
      (forall v, In v (affine l x) -> in_hull (concat (map (affine l) data)) v) ->
      (forall v, In v (float_layer l x) -> in_hull (concat (map (float_layer l) data)) v) ->
      exists yq, chain gs xq yq /\ near out q (err_bound c L D [l] ops x e) (float_layer l x) yq.
Proof.
  intros EC G HA Sh NI [(sk & m & ba & Psk & FM & NB & FB & LB & HE)] OK LIP.
  pose proof Sh as (Hn & Hu & LK & LR & _). destruct G as [Gopt Gk Ga Gba Gb Nk N Nb Gpos Gsym].
  set (k := mkpn sk 0 (grepr qk) [length (kd_w l); width (kd_w l)] (PMat m) None) in *.
  set (b := quant_bias qb (pn_scale inp) sk (kd_b l)) in *. cbv zeta in HE. fold k b in HE.
  set (si := pn_scale inp) in *. set (so := pn_scale ba) in *.
  assert (Psi : (0 < si)%Q) by apply (no_pos _ _ NI). assert (Pso : (0 < so)%Q) by apply (no_pos _ _ NB).
  assert (Pii : (0 < si * sk)%Q) by nra.
  (* shapes of the exported kernel *)
  assert (LM : length m = kd_units l).
  { rewrite <- (kd_w_length l). clear -FM. induction FM; cbn; congruence. }
  assert (MJ : forall j, (j < kd_units l)%nat ->
     Forall2 (fun c x => in_dtype qk c /\ (Qabs (sk * inject_Z c - x) <= if d_sym d then sk * (1#2) else sk)%Q) (nth j m []) (column j (kd_kernel l))).
  { intros j Hj. rewrite <- (kd_w_nth l j []) by exact Hj. clear -FM Hj LM. 
    rewrite <- LM in Hj. revert j Hj. clear LM. induction FM as [|r w m ws H _ IH]; intros j Hj; [cbn in Hj; lia|].
    destruct j as [|j]; [exact H|]. apply IH. cbn in Hj. lia. }
  assert (LMJ : forall j, (j < kd_units l)%nat -> length (nth j m []) = n).
  { intros j Hj. specialize (MJ j Hj). apply F2_length in MJ. rewrite MJ. unfold column. now rewrite map_length. }
  assert (WM : width m = n).
  { unfold width. rewrite <- (LMJ 0%nat Hu). destruct m; reflexivity. }
  (* the fully connected operator, whatever output node record carries the same parameters as ba *)
  assert (FC : forall ba', pn_scale ba' = so -> pn_zp ba' = pn_zp ba -> node_ok ba' q -> fc_op_ok (fc_oper l inp k b ba') ->
    exists ly lf, build_layer ie_builders (fc_oper l inp k b ba') = Ok ly /\ rowwise ly (g_fc lf) /\
      forall x xq e, near inp qi e x xq -> length x = n -> (forall v, In v (affine l x) -> in_hull (concat (map (affine l) data)) v) ->
      exists yq, g_fc lf xq = Ok yq /\ near ba' q (fc_bound (d_sym d) l si sk so x e) (affine l x) yq).
  { intros ba' S1 S2 NB' OKF.
    assert (PK : parse_dtype (grepr qk) = Ok qk) by (apply (C06_str_roundtrip _ _ Gk)).
    assert (PB : parse_dtype (grepr qb) = Ok qb) by (apply (C06_str_roundtrip _ _ Gb)).
    destruct (OKF inp k b ba' m (map (quant1 qb 0 (si * sk)) (kd_b l)) qi qk qb eq_refl eq_refl eq_refl eq_refl (no_dtype _ _ NI) PK PB) as (M1 & M2 & BV).
    cbn [pn_scale k] in M1, M2. fold si in M1, M2.
    destruct (fc_builds l sk m inp ba' qi q qk qb NI NB' Psk M2) as (lf & Hlf & ly & Hly & RW).
    exists ly, lf. split; [exact Hly|]. split; [exact RW|].
    intros x xq e NX Lx HH. destruct NX as [NX1 NX2 NX3].
    assert (XN : x <> []) by (destruct x; cbn in *; [lia|discriminate]).
    assert (E0 : (0 <= e)%Q) by (apply (near_nonneg inp qi e x xq); [constructor; assumption|exact XN]).
    rewrite S1 in *. fold si in Hlf.
    assert (GS : good_shapes m (map (quant1 qb 0 (si * sk)) (kd_b l)) xq).
    { split.
      - intros w Hw. apply In_nth with (d := []) in Hw as (j & Hj & <-). rewrite LMJ by lia. lia.
      - rewrite map_length, (kd_b_length n) by exact Sh. lia. }
    destruct (fc_row si (pn_zp inp) sk so (pn_zp ba') q m _ lf xq x e Psi Psk Pso E0 Hlf GS N (no_zp _ _ NB') M1 ltac:(lia) NX3)
      as (y & Y1 & Y2 & Y3 & Y4).
    exists y. split; [apply g_fc_ok, Y1|]. constructor.
    - rewrite affine_length. lia.
    - exact Y3.
    - rewrite affine_length. intros j Hj. rewrite affine_nth by exact Hj. rewrite S1.
      set (w := column j (kd_kernel l)). set (bj := bias_at l j).
      set (ek := if d_sym d then (sk * (1#2))%Q else sk).
      assert (EK0 : (0 <= ek)%Q) by (unfold ek; destruct (d_sym d); lra).
      assert (LW : length w = n) by (unfold w, column; now rewrite map_length).
      assert (NBJ : nth j (map (quant1 qb 0 (si * sk)) (kd_b l)) 0 = quant1 qb 0 (si * sk) bj).
      { rewrite nth_indep with (d' := quant1 qb 0 (si * sk) 0) by (rewrite map_length, (kd_b_length n) by exact Sh; exact Hj).
        rewrite map_nth. f_equal. apply (kd_b_nth n); assumption. }
      destruct (BV (quant1 qb 0 (si * sk) bj)) as [BV1 BV2].
      { apply in_map_iff. exists bj. split; [reflexivity|]. unfold bj. rewrite <- (kd_b_nth n l j Sh Hj). apply nth_In. rewrite (kd_b_length n) by exact Sh. exact Hj. }
      specialize (MJ j Hj). fold w in MJ.
      assert (MJ' : forall i, (i < n)%nat -> in_dtype qk (nth i (nth j m []) 0) /\ (Qabs (sk * inject_Z (nth i (nth j m []) 0%Z) - nth i w 0) <= ek)%Q).
      { intros i Hi. clear -MJ Hi LW. rewrite <- LW in Hi. revert i Hi. clear LW. induction MJ as [|c0 x0 cs xs H _ IH]; intros i Hi; [cbn in Hi; lia|].
        destruct i as [|i]; [exact H|]. apply IH. cbn in Hi. lia. }
      specialize (Y4 j w bj ek (si * sk * (1#2))%Q ltac:(lia) EK0).
      eapply Qle_trans; [apply Y4|].
      + intros i Hi. apply MJ'. lia.
      + rewrite NBJ. apply quant_bias_err; [exact Nb|exact Pii|exact BV1].
      + rewrite NBJ. eapply Z.le_trans; [apply (acc_bound qi _ _ _ (Z.max (gmax qk) (- gmin qk)))|].
        * apply (no_zp _ _ NI).
        * exact NX2.
        * intros v Hv. apply In_nth with (d := 0) in Hv as (i & Hi & <-). rewrite LMJ in Hi by exact Hj.
          destruct (MJ' i Hi) as [[D1 D2] _]. lia.
        * rewrite LMJ by exact Hj. lia.
        * rewrite WM in BV2. replace (length xq) with n by lia. exact BV2.
      + rewrite S2. apply (FB (dense x w bj)). apply HH. unfold w, bj. rewrite <- affine_nth by exact Hj. apply nth_In. now rewrite affine_length.
      + unfold fc_bound. fold ek.
        assert (SB : (sumQ_upto (length x) (fun i => e * Qabs (nth i w 0%Q) + ek * Qabs (nth i x 0%Q) + e * ek) <=
           e * wsum l + ek * abssum x + inject_Z (Z.of_nat (length x)) * (e * ek))%Q).
        { rewrite (sumQ_upto_split (length x) (fun i => e * Qabs (nth i w 0%Q) + ek * Qabs (nth i x 0%Q))%Q (fun _ => e * ek)%Q).
          rewrite (sumQ_upto_split (length x) (fun i => e * Qabs (nth i w 0%Q))%Q (fun i => ek * Qabs (nth i x 0%Q))%Q).
          rewrite !sumQ_upto_scale, sumQ_upto_const.
          rewrite <- (abssum_upto x (length x) eq_refl). rewrite <- (abssum_upto w (length x)) by lia.
          apply Qplus_le_compat; [|lra]. apply Qplus_le_compat; [|lra].
          rewrite !(Qmult_comm e). apply Qmult_le_compat_r; [apply wsum_ge, Hj|exact E0]. }
        lra. }
  destruct HA as [HP|HT].
  - destruct (plain_facts l HP) as (T1 & _). rewrite T1 in HE. destruct HE as [-> ->]. inversion OK as [|? ? OK1 _]; subst.
    destruct (FC ba eq_refl eq_refl NB OK1) as (ly & lf & B1 & B2 & B3).
    exists [ly], [g_fc lf]. cbn [mapM]. rewrite B1. cbn [rbind]. split; [reflexivity|].
    split; [constructor; [exact B2|constructor]|]. split; [exact NB|].
    intros x xq e NX Lx HH _. destruct (B3 x xq e NX Lx HH) as (yq & Y1 & Y2). exists yq. split.
    + econstructor; [|exact Y1|constructor]. destruct NX as [NX1 _ _]. intros ->. destruct x; cbn in *; [lia|discriminate].
    + cbn [err_bound fc_oper]. rewrite T1. unfold float_layer. rewrite T1. unfold sym_of. rewrite EC.
      cbn [in_scale out_scale nth map hd jo_body pb_in pb_out]. exact Y2.
  - destruct (table_facts l HT) as (T1 & _ & _ & _ & kk & K1 & K2). rewrite T1 in HE. destruct HE as (os & oz & NO & FO & -> & ->).
    set (o := mkpn os oz (grepr q) [kd_units l] PNone None) in *.
    set (ba' := attach_lut ba q (kd_fn l) os oz) in *.
    assert (NB' : node_ok ba' q) by (destruct NB; constructor; assumption).
    inversion OK as [|? ? OK1 _]; subst.
    destruct (FC ba' eq_refl eq_refl NB' OK1) as (ly & lf & B1 & B2 & B3).
    set (lt := NodeModel.lut_new q (kd_fn l) (pn_scale ba) (pn_zp ba) os oz).
    set (a := mkact (Full (NodeModel.l_table lt)) (NodeModel.lut_offset lt)).
    pose proof N as (N1 & N2 & N3).
    assert (BL : exists ly2, build_layer ie_builders (mkjop (upper (kd_act l) ++ str "LUT") (upper (kd_act l) ++ str "LUT") (mkpb [ba'] [o])) = Ok ly2 /\ rowwise ly2 (g_lut a)).
    { eexists. split.
      - unfold build_layer. cbn [jo_type jo_body]. rewrite K1. cbn [rbind ie_builders b_tflite].
        transitivity (ie_lut (mkpb [ba'] [o])); [destruct K2 as [-> | ->]; reflexivity|].
        unfold ie_lut. change (py_index (pb_in (mkpb [ba'] [o])) 0) with (Ok ba'). cbn [rbind]. reflexivity.
      - intros xs ys NE XN F. cbn [asI].
        assert (CN : concat xs <> []).
        { destruct xs as [|r xs]; [congruence|]. specialize (XN r ltac:(now left)). destruct r; [congruence|discriminate]. }
        destruct (concat xs) as [|z0 zs]; [congruence|].
        assert (MM : mapM (g_lut a) xs = Ok ys) by (apply mapM_inv; exact F).
        transitivity (do m0 <- mapM (g_lut a) xs; Ok (VI m0)); [reflexivity|]. rewrite MM. reflexivity. }
    destruct BL as (ly2 & BL1 & BL2).
    exists [ly; ly2], [g_fc lf; g_lut a]. split.
    { cbn [mapM]. rewrite B1. cbn [rbind]. rewrite BL1. reflexivity. }
    split; [constructor; [exact B2|constructor; [exact BL2|constructor]]|]. split; [exact NO|].
    intros x xq e NX Lx HH HF. destruct (B3 x xq e NX Lx HH) as (yq & Y1 & [YL YD YE]).
    destruct (LIP HT) as (L0 & D0 & LI).
    (* every looked-up code *)
    assert (LK1 : forall v, in_dtype q v -> lookup (la_table a) (v + la_offset a) = Ok (quant1 q oz os (kd_fn l (dequant1 (pn_zp ba) (pn_scale ba) v)))).
    { intros v Hv. pose proof (C33_fresh_lookup q (kd_fn l) (pn_scale ba) (pn_zp ba) os oz v N1 Hv) as E.
      unfold NodeModel.lut_call in E. fold lt in E. unfold a. cbn [la_table la_offset lookup]. rewrite E. reflexivity. }
    assert (GL : g_lut a yq = Ok (map (fun v => quant1 q oz os (kd_fn l (dequant1 (pn_zp ba) (pn_scale ba) v))) yq)).
    { unfold g_lut. apply mapM_ok_map. intros v Hv. apply LK1, YD, Hv. }
    set (e1 := fc_bound (d_sym d) l si sk so x e) in *.
    assert (AN : affine l x <> []) by (intros E; pose proof (affine_length l x) as E'; rewrite E in E'; cbn in E'; lia).
    eexists. split.
    + econstructor; [|exact Y1|econstructor; [|exact GL|constructor]].
      * destruct NX as [NX1 _ _]. intros ->. destruct x; cbn in *; [lia|discriminate].
      * intros ->. rewrite affine_length in YL. cbn in YL. lia.
    + cbn [err_bound fc_oper]. rewrite T1. unfold sym_of. rewrite EC.
      cbn [in_scale out_scale nth map hd jo_body pb_in pb_out].
      change (pn_scale ba') with so. change (pn_scale o) with os. cbn [pn_scale k]. fold si e1.
      assert (FLX : float_layer l x = map (kd_fn l) (affine l x)) by (unfold float_layer; now rewrite T1).
      rewrite FLX in HF |- *.
      assert (ES : (0 < os)%Q) by apply (no_pos _ _ NO).
      assert (E10 : (0 <= e1)%Q).
      { eapply (near_nonneg ba' q e1 (affine l x) yq); [constructor; assumption|exact AN]. }
      assert (ONE : forall i, (i < kd_units l)%nat ->
        let v := quant1 q oz os (kd_fn l (dequant1 (pn_zp ba) (pn_scale ba) (nth i yq 0))) in
        in_dtype q v /\ (Qabs (os * inject_Z (v - oz) - kd_fn l (nth i (affine l x) 0%Q)) <= L l * e1 + D l + os * (1#2))%Q).
      { intros i Hi. cbv zeta. rewrite affine_length in YL, YE. specialize (YE i Hi).
        change (pn_scale ba') with so in YE. change (pn_zp ba') with (pn_zp ba) in YE.
        assert (IY : in_dtype q (nth i yq 0)) by (apply YD, nth_In; lia).
        rewrite (dequant1_nowrap q) by (try exact N1; try exact IY; pose proof (no_zp _ _ NB); unfold zp_nowrap, in_dtype in *; lia).
        apply quant1_near; [exact N|exact ES| | |].
        - assert (0 <= L l * e1)%Q by (apply Qmult_le_0_compat; assumption). lra.
        - apply FO. apply HF. apply in_map. apply nth_In. rewrite affine_length. exact Hi.
        - eapply Qle_trans; [apply LI|]. apply Qplus_le_compat; [|lra]. rewrite !(Qmult_comm (L l)). apply Qmult_le_compat_r; [|exact L0].
          rewrite (Qmult_comm (inject_Z _)). exact YE. }
      constructor.
      * rewrite !map_length. exact YL.
      * intros v Hv. apply in_map_iff in Hv as (u & <- & Hu'). apply In_nth with (d := 0) in Hu' as (i & Hi & <-). rewrite YL, affine_length in Hi. apply (ONE i Hi).
      * rewrite map_length, affine_length. intros i Hi. change (pn_scale o) with os. change (pn_zp o) with oz.
        set (h := fun v => quant1 q oz os (kd_fn l (dequant1 (pn_zp ba) (pn_scale ba) v))).
        rewrite nth_indep with (d' := h 0) by (rewrite map_length, YL, affine_length; exact Hi). rewrite map_nth. unfold h.
        rewrite (nth_indep (map (kd_fn l) (affine l x)) 0%Q (kd_fn l 0%Q)) by (rewrite map_length, affine_length; exact Hi). rewrite map_nth.
        apply (ONE i Hi).
Qed.

(** ** The whole network *)
Lemma err_bound_split c L D l qk q qb sym inp data ops out rest ls x e :
  dense_export l qk q qb sym inp data ops out ->
  err_bound c L D (l :: ls) (ops ++ rest) x e = err_bound c L D ls rest (float_layer l x) (err_bound c L D [l] ops x e).
Proof.
  intros [(sk & m & ba & _ & _ & _ & _ & _ & H)]. cbv zeta in H. destruct (is_table l) eqn:T.
  - destruct H as (os & oz & _ & _ & _ & ->). cbn [app err_bound]. rewrite T. reflexivity.
  - destruct H as (_ & ->). cbn [app err_bound]. rewrite T. reflexivity.
Qed.
Lemma shaped_layer n l r : shaped n (l :: r) -> layer_shaped n l /\ shaped (kd_units l) r /\ (0 < n)%nat.
Proof. intros (A & B & C & D & E & F). repeat split; assumption. Qed.
Lemma Forall_app_inv {A} (P : A -> Prop) a b : Forall P (a ++ b) -> Forall P a /\ Forall P b.
Proof. apply Forall_app. Qed.
Lemma covered_rows ls rows x v : covered ls rows x -> In v x -> in_hull (concat rows) v.
Proof. destruct ls; intros [H _]; apply H. Qed.

Lemma layers_ok c : forall ls n inp data qi,
  shaped n (denses ls) -> Forall (good_layer c) (denses ls) -> node_ok inp qi -> data <> [] -> (forall r, In r data -> length r = n) ->
  exists ops out qo, pipe_layers c ls inp data = Ok (ops, out) /\ node_ok out qo /\ length ops = op_count (denses ls) /\
    forall L D, (forall l, In l (denses ls) -> table_act l -> lipschitz L D l) ->
    Forall fc_op_ok ops -> exists lys gs, mapM (build_layer ie_builders) ops = Ok lys /\ Forall2 rowwise lys gs /\
      forall x xq e, near inp qi e x xq -> length x = n -> covered (denses ls) data x ->
        exists yq, chain gs xq yq /\ near out qo (err_bound c L D (denses ls) ops x e) (float_net (denses ls) x) yq.
Proof.
  induction ls as [|p ls IH]; intros n inp data qi Sh G NI NE LD.
  - exists [], inp, qi. split; [reflexivity|]. split; [exact NI|]. split; [reflexivity|]. intros L D _ _. exists [], [].
    split; [reflexivity|]. split; [constructor|]. intros x xq e NX _ _. exists xq. split; [constructor|exact NX].
  - destruct p as [l|]; [|exact (IH n inp data qi Sh G NI NE LD)]. cbn [denses] in Sh, G.
    apply shaped_layer in Sh as (SL & SR & _).
    inversion G as [|? ? (HA & d & qk & q & qb & EC & GC) GR]; subst.
    destruct (pipe_dense_ok c l inp data d qk q qb n EC GC HA SL NE LD) as (ops & out & PD & DE).
    assert (NO : node_ok out q).
    { destruct DE as [(sk & m & ba & _ & _ & NB & _ & _ & H)]. cbv zeta in H. destruct (is_table l).
      - destruct H as (os & oz & NO & _ & -> & _). exact NO.
      - destruct H as (-> & _). exact NB. }
    destruct (IH (kd_units l) out (map (float_layer l) data) q SR GR NO) as (ops2 & out2 & qo & PL & NO2 & CNT & HL).
    { destruct data; [congruence|discriminate]. }
    { intros r Hr. apply in_map_iff in Hr as (y & <- & _). apply float_layer_length. }
    exists (ops ++ ops2), out2, qo. split.
    { cbn [pipe_layers]. rewrite PD. cbn [rbind]. rewrite PL. reflexivity. }
    split; [exact NO2|]. split.
    { rewrite app_length, CNT. unfold op_count. cbn [denses fold_right]. f_equal.
      destruct DE as [(sk & m & ba & _ & _ & _ & _ & _ & H)]. cbv zeta in H. destruct (is_table l).
      - destruct H as (os & oz & _ & _ & _ & ->). reflexivity.
      - destruct H as (_ & ->). reflexivity. }
    intros L D LIP OK. apply Forall_app_inv in OK as [OK1 OK2].
    destruct (dense_step c L D l qk q qb d qi inp data ops out n EC GC HA SL NI DE OK1) as (lys & gs & B1 & B2 & _ & B3).
    { apply LIP. now left. }
    destruct (HL L D) as (lys2 & gs2 & C1 & C2 & C3); [intros; apply LIP; [now right|assumption]|exact OK2|].
    exists (lys ++ lys2), (gs ++ gs2). split.
    { clear -B1 C1. revert lys B1. induction ops as [|o ops IHo]; intros lys B1; cbn [app mapM] in *.
      - assert (lys = []) by congruence. subst. exact C1.
      - destruct (build_layer ie_builders o) as [ly|]; [|discriminate]. cbn [rbind] in *.
        destruct (mapM (build_layer ie_builders) ops) as [r|] eqn:E; [|discriminate]. cbn [rbind] in B1.
        rewrite (IHo r eq_refl). cbn [rbind]. assert (lys = ly :: r) by congruence. subst. reflexivity. }
    split; [now apply Forall2_app|].
    intros x xq e NX Lx CV. cbn [covered denses] in CV. destruct CV as (_ & CA & CR).
    destruct (B3 x xq e NX Lx CA) as (yq & Y1 & Y2). { intros v Hv. eapply covered_rows; [exact CR|exact Hv]. }
    destruct (C3 (float_layer l x) yq _ Y2 (float_layer_length l x) CR) as (zq & Z1 & Z2).
    exists zq. split; [eapply chain_app; eassumption|]. cbn [denses]. 
    rewrite (err_bound_split c L D l qk q qb (d_sym d) inp data ops out ops2 (denses ls) x e DE). exact Z2.
Qed.

(** ** Input and output operators *)
Lemma pipe_input_ok s q data n : parse_dtype s = Ok q -> narrow q -> data <> [] -> (0 < n)%nat -> (forall r, In r data -> length r = n) ->
  exists nd, pipe_input s data = Ok (mkjop (str "QUANTIZE") (str "QUANTIZE") (mkpb [] [nd]), nd) /\ node_ok nd q /\ fits_node nd q (concat data).
Proof.
  intros P N NE Hn LD. destruct (calib_node (concat data) q [width data] N (ex_intro _ _ P)) as (d & sc & z & E1 & E2 & NO & FN).
  { apply concat_ne with (n := n); assumption. }
  eexists. split; [|split; [exact NO|exact FN]]. unfold pipe_input. rewrite P. cbn [rbind]. rewrite E1. cbn [rbind]. rewrite E2. reflexivity.
Qed.
Lemma input_near nd q rows x : node_ok nd q -> fits_node nd q (concat rows) -> (forall v, In v x -> in_hull (concat rows) v) ->
  near nd q (pn_scale nd * (1#2)) x (map (quant1 q (pn_zp nd) (pn_scale nd)) x).
Proof.
  intros [ND NN NP NZ] FN HX.
  assert (H : forall v, In v x -> in_dtype q (quant1 q (pn_zp nd) (pn_scale nd) v) /\
     (Qabs (pn_scale nd * inject_Z (quant1 q (pn_zp nd) (pn_scale nd) v - pn_zp nd) - v) <= 0 + pn_scale nd * (1#2))%Q).
  { intros v Hv. apply quant1_near; [exact NN|exact NP|lra|apply FN, HX, Hv|].
    setoid_replace (v - v)%Q with 0%Q by ring. discriminate. }
  constructor.
  - now rewrite map_length.
  - intros v Hv. apply in_map_iff in Hv as (u & <- & Hu). now apply H.
  - intros i Hi. set (h := quant1 q (pn_zp nd) (pn_scale nd)).
    rewrite (nth_indep (map h x) 0 (h 0%Q)) by (rewrite map_length; exact Hi). rewrite map_nth. unfold h.
    eapply Qle_trans; [apply H, nth_In, Hi|lra].
Qed.
Lemma in_hull_self rows r v : In r rows -> In v r -> in_hull (concat rows) v.
Proof.
  intros Hr Hv. exists v, v. assert (In v (concat rows)) by (apply in_concat; eauto).
  split; [now right|]. split; [now right|]. split; apply Qle_refl.
Qed.
Lemma calibration_covered ls : forall rows x, In x rows -> covered ls rows x.
Proof.
  induction ls as [|l ls IH]; intros rows x Hx; cbn [covered].
  - split; [|exact I]. intros v Hv. eapply in_hull_self; eassumption.
  - split; [intros v Hv; eapply in_hull_self; eassumption|]. split.
    + intros v Hv. eapply in_hull_self; [apply in_map, Hx|exact Hv].
    + apply IH, in_map, Hx.
Qed.
