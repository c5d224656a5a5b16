(** Properties C76, C77: what adaptive rounding with the QUBO optimizer leaves in the exported network, and the
    QAOA front end. *)
From Verif Require Import Base BaseProofs DtypeModel QuantModel QuantProofs PropCore NodeModel AnnealModel PropAnneal PropFc
  QuboModel SpecQubo QuboProofs QuboEnergy QuboMore PropQubo QuboDeployModel.
Open Scope Z_scope.
Open Scope list_scope.

(** ** Vocabulary *)
(** exported codes of a dense layer's kernel and bias *)
Definition kernel_code (w : world) (L : qlayer) (l i : nat) : Z :=
  match n_tens (w (ql_kernel L)) with Some t => nd_get (t_codes t) [l; i] | None => 0 end.
Definition bias_code (w : world) (L : qlayer) (l : nat) : Z :=
  match n_tens (w (ql_bias L)) with Some t => nd_get (t_codes t) [l] | None => 0 end.
Definition kernel_row (w : world) (L : qlayer) (n l : nat) : list Z := map (kernel_code w L l) (seq 0 n).
(** the two integers around x / s: [false] down, [true] down plus one *)
Definition either (s x : Q) (up : bool) : Z := Qfloor (x / s) + (if up then 1 else 0).
Definition in_scale (w : world) (L : qlayer) : Q := n_scale (w (ql_input L)).
Definition k_scale (w : world) (L : qlayer) : Q := n_scale (w (ql_kernel L)).
Definition k_zp (w : world) (L : qlayer) : Z := n_zp (w (ql_kernel L)).
(** node i holds the float tensor f of the given shape, with scale s and zero point z *)
Definition holds (w : world) (i : nat) (s : Q) (z : Z) (shape : list nat) (f : list nat -> Q) : Prop :=
  (n_scale (w i) == s)%Q /\ n_zp (w i) = z /\ within_int32 (n_q (w i)) /\
  exists t, n_tens (w i) = Some t /\ nd_shape (t_fp t) = shape /\
    forall idx, valid_idx shape idx = true -> (nd_get (t_fp t) idx == f idx)%Q.
Definition at2 (K : list (list Q)) (idx : list nat) : Q := match idx with [l; i] => nth i (nth l K []) 0%Q | _ => 0%Q end.
Definition at1 (B : list Q) (idx : list nat) : Q := match idx with [l] => nth l B 0%Q | _ => 0%Q end.
(** a quantized dense layer with n inputs and m neurons, and its calibration data *)
Definition layer_ready (w : world) (L : qlayer) (n m : nat) : Prop :=
  ql_X L <> [] /\ Forall (fun r => length r = n) (ql_X L) /\ length (ql_B L) = m /\
  (0 < in_scale w L)%Q /\ (0 < k_scale w L)%Q /\
  holds w (ql_kernel L) (k_scale w L) (k_zp w L) [m; n] (at2 (ql_K L)) /\
  holds w (ql_bias L) (in_scale w L * k_scale w L) 0 [m] (at1 (ql_B L)) /\
  ql_kernel L <> ql_bias L.

(** The sampler's answer for neuron l, read off the variable numbers: kernel weight i, bias. *)
Definition up_kernel (n : nat) (smp : nat -> nat -> bool) (l i : nat) : bool := smp l (l * n + i + 1)%nat.
Definition up_bias (n m : nat) (smp : nat -> nat -> bool) (l : nat) : bool := smp l (n * m + 1 + l)%nat.
(** w' exports, for layer L, the sampler's choice (saturated) *)
Definition rounded (w w' : world) (L : qlayer) (n m : nat) (smp : nat -> nat -> bool) : Prop :=
  (forall l i, (l < m)%nat -> (i < n)%nat ->
     kernel_code w' L l i = (let d := n_q (w (ql_kernel L)) in
       clamp (gmin d) (gmax d) (either (k_scale w L) (nth i (nth l (ql_K L) []) 0%Q) (up_kernel n smp l i) + k_zp w L))) /\
  (forall l, (l < m)%nat ->
     bias_code w' L l = (let d := n_q (w (ql_bias L)) in
       clamp (gmin d) (gmax d) (either (in_scale w L * k_scale w L) (nth l (ql_B L) 0%Q) (up_bias n m smp l)))).

(** ** Lemmas *)
Lemma inst_dims w L n m : layer_ready w L n m ->
  iN (inst_of w L) = length (ql_X L) /\ iIn (inst_of w L) = n /\ iOut (inst_of w L) = m /\ (0 < length (ql_X L))%nat.
Proof.
  intros (X & F & B & _). cbn. split; [reflexivity|]. split; [|split; [exact B|destruct (ql_X L); [congruence|cbn; lia]]].
  destruct (ql_X L) as [|r X']; [congruence|]. inversion F; subst. reflexivity.
Qed.
Lemma inst_wf w L n m : layer_ready w L n m -> wf_inst (inst_of w L).
Proof.
  intros R. destruct (inst_dims _ _ _ _ R) as (A & _ & _ & D). destruct R as (_ & _ & _ & SI & SK & _).
  split; [lia|]. unfold in_scale, k_scale in *. cbn. split; intros E; rewrite E in *; now apply (Qlt_irrefl 0).
Qed.

Definition qrow (n : nat) (smp : nat -> nat -> bool) (l : nat) : list bool := map (up_kernel n smp l) (seq 0 n).
Lemma qubo_dense_ok I smp : (0 < iN I)%nat ->
  qubo_dense I smp = Ok [mkpt [iOut I; iIn I] (concat (map (fun l => map bitz (qrow (iIn I) smp l)) (seq 0 (iOut I))));
                         mkpt [iOut I] (map (fun l => bitz (up_bias (iIn I) (iOut I) smp l)) (seq 0 (iOut I)))].
Proof.
  intros N0. unfold qubo_dense. destruct (Nat.eqb_spec (iN I) 0) as [E|_]; [lia|].
  destruct (run_free_ok I) as (st & -> & _ & E). cbn [rbind].
  assert (M : mapM (solve_neuron I smp st) (seq 0 (iOut I)) =
    Ok (map (fun l => (qrow (iIn I) smp l, up_bias (iIn I) (iOut I) smp l)) (seq 0 (iOut I)))).
  { apply mapM_ok_map. intros l Hl. apply in_seq in Hl. unfold solve_neuron. rewrite E.
    assert (LT : (l < iOut I)%nat) by lia.
    destruct (py_index_nonneg (map (terms_class I) (seq 0 (iOut I))) (Z.of_nat l)) as (t & Ht & ->); [rewrite map_length, seq_length; lia|].
    rewrite Nat2Z.id, nth_error_map in Ht. rewrite (nth_error_nth' _ 0%nat) in Ht by (now rewrite seq_length).
    rewrite seq_nth in Ht by exact LT. simpl in Ht. injection Ht as <-. cbn [rbind].
    change (unir _ _ _ _ []) with (dict_class I l). rewrite (dict_class_eq I l LT). rewrite (decode_canon I l (smp l) LT). reflexivity. }
  rewrite M. cbn [rbind]. rewrite !map_map. reflexivity.
Qed.

Lemma nth_rows {A} (d : A) (f : nat -> nat -> A) n m l i : (l < m)%nat -> (i < n)%nat ->
  nth (l * n + i) (concat (map (fun l => map (f l) (seq 0 n)) (seq 0 m))) d = f l i.
Proof.
  intros Hl Hi. assert (G : forall k a, (l < k)%nat -> nth (l * n + i) (concat (map (fun l => map (f l) (seq 0 n)) (seq a k))) d = f (a + l)%nat i).
  { clear Hl. induction l as [|l IH]; intros k a Hk; (destruct k as [|k]; [lia|]); cbn [seq map concat].
    - rewrite app_nth1 by (rewrite map_length, seq_length; lia). rewrite Nat.mul_0_l, Nat.add_0_l, Nat.add_0_r.
      rewrite (nth_indep _ d (f a 0%nat)) by (rewrite map_length, seq_length; lia). rewrite map_nth, seq_nth by exact Hi. reflexivity.
    - rewrite app_nth2 by (rewrite map_length, seq_length; lia). rewrite map_length, seq_length.
      replace (S l * n + i - n)%nat with (l * n + i)%nat by lia. rewrite IH by lia. f_equal. lia. }
  apply (G m 0%nat Hl).
Qed.

(** policy written into a node: its codes *)
Lemma set_policy_codes w i s z shape f p w1 : holds w i s z shape f -> pt_shape p = shape -> set_target w (TNode i) p = Ok w1 ->
  forall idx (b : bool), valid_idx shape idx = true -> nth (flat_index shape idx) (pt_flat p) 0 = bitz b ->
  exists t, n_tens (w1 i) = Some t /\
    nd_get (t_codes t) idx = clamp (gmin (n_q (w i))) (gmax (n_q (w i))) (either s (f idx) b + z).
Proof.
  intros (HS & HZ & HD & t & T & SH & G) SP E idx b V P. cbn [set_target] in E. unfold set_policy in E. rewrite T in E.
  assert (SQ : shape_eqb (nd_shape (nd_of_pt p)) (nd_shape (t_fp t)) = true) by (apply shape_eqb_true; cbn [nd_of_pt nd_shape]; congruence).
  rewrite SQ in E. cbn [rbind] in E.
  match type of E with Ok ?m = _ => assert (w1 = m) by congruence end. subst w1. unfold upd. rewrite Nat.eqb_refl. cbn [set_tens n_tens].
  eexists. split; [reflexivity|]. cbn [t_codes]. rewrite quantize_policy_same by (cbn [nd_of_pt nd_shape]; congruence).
  cbn [nd_of_pt nd_get]. rewrite SP, P.
  replace (inject_Z (bitz b)) with (if b then 1 else 0)%Q by (destruct b; reflexivity).
  rewrite quant1p_binary by exact HD. rewrite clamp_clip by apply HD. rewrite HZ. unfold either. f_equal.
  assert (EQ : (nd_get (t_fp t) idx / n_scale (w i) == f idx / s)%Q) by (now rewrite HS, (G idx V)). rewrite (Qfloor_comp _ _ EQ). lia.
Qed.

(** Every assignment of the sampler is written into the exported codes, neuron by neuron, and nothing else changes. *)
Theorem C76_codes : forall w L n m smp, layer_ready w L n m ->
  exists w', adaround_qubo w L smp = Ok w' /\ rounded w w' L n m smp /\
    (forall j, j <> ql_kernel L -> j <> ql_bias L -> w' j = w j) /\
    (forall j, same_but_policy (w j) (w' j)).
Proof.
  intros w L n m smp R. destruct (inst_dims _ _ _ _ R) as (DN & DI & DO & NP).
  unfold adaround_qubo. rewrite qubo_dense_ok by lia. rewrite DI, DO. cbn [rbind].
  destruct R as (_ & _ & _ & _ & _ & HK & HB & NE). unfold ada_targets. cbn [set_targets].
  set (pk := mkpt [m; n] _). set (pb := mkpt [m] _).
  assert (OK1 : target_ok w (TNode (ql_kernel L)) pk).
  { destruct HK as (_ & _ & _ & t & T & SH & _). exists t. split; [exact T|]. now rewrite SH. }
  destruct (set_target_total _ _ _ OK1) as (w1 & E1). rewrite E1. cbn [rbind].
  assert (HB1 : holds w1 (ql_bias L) (in_scale w L * k_scale w L) 0 [m] (at1 (ql_B L)) /\ n_q (w1 (ql_bias L)) = n_q (w (ql_bias L)) /\
     w1 (ql_bias L) = w (ql_bias L)).
  { assert (W1 : w1 (ql_bias L) = w (ql_bias L)).
    { cbn [set_target] in E1. destruct (set_policy (w (ql_kernel L)) (nd_of_pt pk)) as [nn|] eqn:EP; [|discriminate]. cbn [rbind] in E1.
      match type of E1 with Ok ?m = _ => assert (w1 = m) by congruence end. subst w1. unfold upd. destruct (Nat.eqb_spec (ql_bias L) (ql_kernel L)); [congruence|reflexivity]. }
    split; [|split; [now rewrite W1|exact W1]]. unfold holds. rewrite W1. exact HB. }
  destruct HB1 as (HB1 & QB & WB).
  assert (OK2 : target_ok w1 (TNode (ql_bias L)) pb).
  { destruct HB1 as (_ & _ & _ & t & T & SH & _). exists t. split; [exact T|]. now rewrite SH. }
  destruct (set_target_total _ _ _ OK2) as (w2 & E2). rewrite E2. cbn [rbind].
  assert (END : set_targets w2 match ql_lut L with Some i => [TLut i] | None => [] end [] = Ok w2) by (destruct (ql_lut L); reflexivity).
  exists w2. split; [exact END|].
  assert (W2 : forall j, j <> ql_bias L -> w2 j = w1 j).
  { intros j J. cbn [set_target] in E2. destruct (set_policy (w1 (ql_bias L)) (nd_of_pt pb)) as [nn|] eqn:EP; [|discriminate]. cbn [rbind] in E2.
    match type of E2 with Ok ?m = _ => assert (w2 = m) by congruence end. subst w2. unfold upd. destruct (Nat.eqb_spec j (ql_bias L)); [congruence|reflexivity]. }
  assert (W1 : forall j, j <> ql_kernel L -> w1 j = w j).
  { intros j J. cbn [set_target] in E1. destruct (set_policy (w (ql_kernel L)) (nd_of_pt pk)) as [nn|] eqn:EP; [|discriminate]. cbn [rbind] in E1.
    match type of E1 with Ok ?m = _ => assert (w1 = m) by congruence end. subst w1. unfold upd. destruct (Nat.eqb_spec j (ql_kernel L)); [congruence|reflexivity]. }
  split; [split|split].
  - intros l i Hl Hi. unfold kernel_code. rewrite W2 by exact NE.
    destruct (set_policy_codes w (ql_kernel L) _ _ _ _ pk w1 HK eq_refl E1 [l; i] (up_kernel n smp l i)) as (t & T & C).
    + cbn [valid_idx]. rewrite andb_true_r. apply andb_true_iff. split; now apply Nat.ltb_lt.
    + cbn [flat_index fold_right]. rewrite Nat.mul_1_r, Nat.mul_1_r, Nat.add_0_r. unfold pk. cbn [pt_flat].
      unfold qrow. rewrite <- (nth_rows 0 (fun l i => bitz (up_kernel n smp l i)) n m l i Hl Hi).
      f_equal. f_equal. apply map_ext. intros a. now rewrite map_map.
    + rewrite T. exact C.
  - intros l Hl. unfold bias_code.
    destruct (set_policy_codes w1 (ql_bias L) _ _ _ _ pb w2 HB1 eq_refl E2 [l] (up_bias n m smp l)) as (t & T & C).
    + cbn [valid_idx]. rewrite andb_true_r. now apply Nat.ltb_lt.
    + cbn [flat_index fold_right]. rewrite Nat.mul_1_r, Nat.add_0_r. unfold pb. cbn [pt_flat].
      rewrite (nth_indep _ 0 (bitz (up_bias n m smp 0))) by (rewrite map_length, seq_length; lia).
      rewrite (map_nth (fun l => bitz (up_bias n m smp l))), seq_nth by exact Hl. reflexivity.
    + rewrite T. rewrite C, QB, Z.add_0_r. reflexivity.
  - intros j J1 J2. now rewrite W2, W1.
  - intros j. eapply sbp_trans; [eapply set_target_frame; exact E1|eapply set_target_frame; exact E2].
Qed.

(** ** The deployed layer's error *)
(** Codes the input quantizer of the exported network produces for the calibration rows. *)
Definition input_codes (w : world) (L : qlayer) : list (list Z) :=
  map (map (quant1 (n_q (w (ql_input L))) (n_zp (w (ql_input L))) (in_scale w L))) (ql_X L).
(** Mean squared difference between the float outputs the layer was given and the exact integer accumulator of the
    exported layer (integer arithmetic on the input codes), multiplied by its scale. *)
Definition fit (w : world) (L : qlayer) (l : nat) (wt : list Z) (b : Z) : Q :=
  (sumQ (map (fun r => (nth l (nth r (ql_O L) []) 0 - in_scale w L * k_scale w L *
           inject_Z (exact_acc (n_zp (w (ql_input L))) (k_zp w L) (nth r (input_codes w L) []) wt b)) ^ 2)
         (seq 0 (length (ql_X L)))) / inject_Z (Z.of_nat (length (ql_X L))))%Q.
(** Inputs that neither saturate nor lie exactly half way between two codes. *)
Definition inputs_ok (w : world) (L : qlayer) : Prop :=
  let d := n_q (w (ql_input L)) in within_int32 d /\
  forall r x, In r (ql_X L) -> In x r ->
    (inject_Z (gmin d) <= x / in_scale w L + inject_Z (n_zp (w (ql_input L))) <= inject_Z (gmax d))%Q /\
    forall k, ~ (x / in_scale w L == inject_Z k + (1#2))%Q.
(** The solver's rounding directions never push a weight or a bias out of its dtype. *)
Definition choice_in_range (w : world) (L : qlayer) (n m : nat) (smp : nat -> nat -> bool) : Prop :=
  (forall l i, (l < m)%nat -> (i < n)%nat ->
     in_dtype (n_q (w (ql_kernel L))) (either (k_scale w L) (nth i (nth l (ql_K L) []) 0%Q) (up_kernel n smp l i) + k_zp w L)) /\
  (forall l, (l < m)%nat ->
     in_dtype (n_q (w (ql_bias L))) (either (in_scale w L * k_scale w L) (nth l (ql_B L) 0%Q) (up_bias n m smp l))).
(** The solver is exact: for every neuron it returns a minimum of that neuron's QUBO. *)
Definition solver_exact (w : world) (L : qlayer) (m : nat) (smp : nat -> nat -> bool) : Prop :=
  forall l D, (l < m)%nat -> dict_free (inst_of w L) l = Ok D -> exact_minimiser D (smp l).

Lemma round_agree x : (forall k, ~ (x == inject_Z k + (1#2))%Q) -> Qround_even x = Qfloor (x + (1#2)).
Proof.
  intros H. symmetry. apply Qfloor_iff. pose proof (Qround_even_near x) as N. apply Qabs_Qle_condition in N. split; [lra|].
  destruct (Qlt_le_dec (x + (1 # 2)) (inject_Z (Qround_even x) + 1)) as [A|A]; [exact A|]. exfalso. apply (H (Qround_even x)). lra.
Qed.
Lemma input_code_exact w L x : within_int32 (n_q (w (ql_input L))) ->
  (inject_Z (gmin (n_q (w (ql_input L)))) <= x / in_scale w L + inject_Z (n_zp (w (ql_input L))) <= inject_Z (gmax (n_q (w (ql_input L)))))%Q ->
  (forall k, ~ (x / in_scale w L == inject_Z k + (1#2))%Q) ->
  quant1 (n_q (w (ql_input L))) (n_zp (w (ql_input L))) (in_scale w L) x - n_zp (w (ql_input L)) = Qround_even (x / in_scale w L).
Proof.
  intros HD [A B] T. set (z := n_zp (w (ql_input L))) in *. set (d := n_q (w (ql_input L))) in *. set (y := (x / in_scale w L)%Q) in *.
  unfold quant1. rewrite q_round_clip by exact HD. fold y.
  assert (E : (y + inject_Z z + (1#2) == y + (1#2) + inject_Z z)%Q) by ring. rewrite (Qfloor_comp _ _ E), Qfloor_plus_Z.
  rewrite (round_agree y T). rewrite clipZ_id; [lia|].
  assert (L1 : gmin d <= Qfloor (y + inject_Z z + (1#2))) by (apply Qfloor_ge; lra).
  assert (L2 : Qfloor (y + inject_Z z + (1#2)) < gmax d + 1) by (apply Qfloor_lt; rewrite inject_Z_plus; change (inject_Z 1) with 1%Q; lra).
  rewrite (Qfloor_comp _ _ E), Qfloor_plus_Z in L1, L2. lia.
Qed.
Lemma sumQ_of_Zs (f : nat -> Z) (l : list nat) : (inject_Z (sumZ (map f l)) == sumQ (map (fun i => inject_Z (f i)) l))%Q.
Proof. induction l as [|a l IH]; [reflexivity|]. cbn [map sumZ sumQ fold_right]. fold (sumZ (map f l)). rewrite inject_Z_plus, IH. reflexivity. Qed.

Lemma fit_is_mse w L n m l (f : nat -> Z) b : layer_ready w L n m -> inputs_ok w L ->
  (fit w L l (map f (seq 0 n)) b == mse (inst_of w L) l (fun i => (f i - k_zp w L)%Z) b)%Q.
Proof.
  intros R (HD & HX). destruct (inst_dims _ _ _ _ R) as (DN & DI & DO & NP). destruct R as (_ & FX & _ & _ & _ & _ & HB & _).
  destruct HB as (SB & _). unfold fit, mse. rewrite DN. apply Qmult_comp; [|reflexivity]. apply sumQ_map_ext. intros r Hr. apply in_seq in Hr.
  assert (RL : length (nth r (ql_X L) []) = n) by (rewrite Forall_forall in FX; apply FX, nth_In; lia).
  assert (E : (in_scale w L * k_scale w L * inject_Z (exact_acc (n_zp (w (ql_input L))) (k_zp w L) (nth r (input_codes w L) []) (map f (seq 0 n)) b)
     == neuron_out (inst_of w L) l r (fun i => (f i - k_zp w L)%Z) b)%Q); [|cbn [inst_of iO]; rewrite E; reflexivity].
  unfold exact_acc, neuron_out. rewrite DI. rewrite inject_Z_plus. cbn [inst_of i_sb i_sk i_si iX]. rewrite SB.
  unfold sumZ_upto, sum_upto. change (fold_right Z.add 0) with sumZ. rewrite sumQ_of_Zs.
  assert (NI : nth r (input_codes w L) [] = map (quant1 (n_q (w (ql_input L))) (n_zp (w (ql_input L))) (in_scale w L)) (nth r (ql_X L) [])).
  { unfold input_codes. rewrite (nth_indep _ [] (map (quant1 (n_q (w (ql_input L))) (n_zp (w (ql_input L))) (in_scale w L)) [])) by (rewrite map_length; lia). now rewrite map_nth. }
  rewrite NI, map_length, RL. rewrite Qmult_plus_distr_r. apply Qplus_comp; [|reflexivity].
  rewrite <- sumQ_map_mult. apply sumQ_map_ext. intros i Hi. apply in_seq in Hi.
  rewrite (nth_indep _ 0 (quant1 (n_q (w (ql_input L))) (n_zp (w (ql_input L))) (in_scale w L) 0%Q)) by (rewrite map_length; lia). rewrite map_nth.
  destruct (HX (nth r (ql_X L) []) (nth i (nth r (ql_X L) []) 0%Q)) as (HR & HT); [apply nth_In; lia|apply nth_In; lia|].
  rewrite input_code_exact by assumption.
  rewrite (nth_indep _ 0 (f 0%nat)) by (rewrite map_length, seq_length; lia). rewrite map_nth, seq_nth by lia. rewrite Nat.add_0_l.
  rewrite inject_Z_mult. fold (in_scale w L) (k_scale w L). ring.
Qed.

(** With an exact solver, the exported layer fits the float outputs at least as well as every other way of rounding
    each weight and bias down or up. *)
Theorem C76_deployed_optimal : forall w L n m smp w',
  layer_ready w L n m -> inputs_ok w L -> solver_exact w L m smp -> choice_in_range w L n m smp ->
  adaround_qubo w L smp = Ok w' ->
  forall l, (l < m)%nat -> forall (v : nat -> bool) (c : bool),
    (fit w L l (kernel_row w' L n l) (bias_code w' L l)
     <= fit w L l (map (fun i => either (k_scale w L) (nth i (nth l (ql_K L) []) 0%Q) (v i) + k_zp w L)%Z (seq 0 n))
                  (either (in_scale w L * k_scale w L) (nth l (ql_B L) 0%Q) c))%Q.
Proof.
  intros w L n m smp w' R IX SE (CK & CB) E l Hl v c.
  destruct (C76_codes w L n m smp R) as (w1 & E1 & (RK & RB) & _). assert (w' = w1) by congruence. subst w1. clear E1.
  destruct (inst_dims _ _ _ _ R) as (DN & DI & DO & NP). assert (WF := inst_wf _ _ _ _ R).
  assert (Hl' : (l < iOut (inst_of w L))%nat) by lia.
  destruct (C39_optimum (inst_of w L) l _ (smp l) WF Hl' (dict_free_eq _ _ Hl') (SE l _ Hl (dict_free_eq _ _ Hl'))) as (row & b & DC & _ & OPT).
  rewrite (C42_decode (inst_of w L) l _ (smp l) WF Hl' (dict_free_eq _ _ Hl')) in DC. rewrite DI, DO in DC.
  assert (row = qrow n smp l /\ b = up_bias n m smp l) as (-> & ->) by (split; [unfold qrow, up_kernel|unfold up_bias]; congruence).
  specialize (OPT v c).
  unfold kernel_row. rewrite !(fit_is_mse w L n m) by assumption.
  assert (BQ : forall u, biasq (inst_of w L) l u = either (in_scale w L * k_scale w L) (nth l (ql_B L) 0%Q) u).
  { intros u. unfold biasq, either, Zbit. cbn [inst_of iB i_sk i_si]. unfold in_scale, k_scale.
    assert (EQ : (nth l (ql_B L) 0 / (n_scale (w (ql_kernel L)) * n_scale (w (ql_input L))) == nth l (ql_B L) 0 / (n_scale (w (ql_input L)) * n_scale (w (ql_kernel L))))%Q).
    { apply Qmult_comp; [reflexivity|]. now rewrite Qmult_comm. }
    now rewrite (Qfloor_comp _ _ EQ). }
  assert (MX : forall f g u, (forall i, (i < n)%nat -> f i = g i) -> (mse (inst_of w L) l f u == mse (inst_of w L) l g u)%Q).
  { intros f g u FG. unfold mse. apply Qmult_comp; [|reflexivity]. apply sumQ_map_ext. intros s _.
    assert (N : (neuron_out (inst_of w L) l s f u == neuron_out (inst_of w L) l s g u)%Q).
    { unfold neuron_out. apply Qplus_comp; [|reflexivity]. apply sumQ_map_ext. intros i Hi. apply in_seq in Hi. rewrite FG by lia. reflexivity. }
    rewrite N. reflexivity. }
  rewrite !BQ in OPT.
  rewrite (MX _ (weight (inst_of w L) l (fun i => nth i (qrow n smp l) false)) (bias_code w' L l)).
  2:{ intros i Hi. rewrite RK by assumption. specialize (CK l i Hl Hi). cbv zeta. unfold clamp.
      destruct CK as (C1 & C2). destruct (Z.ltb_spec (either (k_scale w L) (nth i (nth l (ql_K L) []) 0%Q) (up_kernel n smp l i) + k_zp w L) (gmin (n_q (w (ql_kernel L))))); [lia|].
      destruct (Z.ltb_spec (gmax (n_q (w (ql_kernel L)))) (either (k_scale w L) (nth i (nth l (ql_K L) []) 0%Q) (up_kernel n smp l i) + k_zp w L)); [lia|].
      rewrite Z.add_simpl_r. unfold weight, either. f_equal. unfold qrow. rewrite (nth_indep _ false (up_kernel n smp l 0)) by (rewrite map_length, seq_length; lia).
      rewrite map_nth, seq_nth by lia. reflexivity. }
  assert (BC : bias_code w' L l = either (in_scale w L * k_scale w L) (nth l (ql_B L) 0%Q) (up_bias n m smp l)).
  { rewrite RB by assumption. specialize (CB l Hl). cbv zeta. unfold clamp. destruct CB as (C1 & C2).
    destruct (Z.ltb_spec (either (in_scale w L * k_scale w L) (nth l (ql_B L) 0%Q) (up_bias n m smp l)) (gmin (n_q (w (ql_bias L))))); [lia|].
    destruct (Z.ltb_spec (gmax (n_q (w (ql_bias L)))) (either (in_scale w L * k_scale w L) (nth l (ql_B L) 0%Q) (up_bias n m smp l))); [lia|]. reflexivity. }
  rewrite BC. eapply Qle_trans; [exact OPT|]. apply Qle_lteq. right. apply MX. intros i Hi. rewrite Z.add_simpl_r. reflexivity.
Qed.
(** In particular, no worse than the network before adaptive rounding, if its codes are roundings down or up. *)
Theorem C76_not_worse_than_before : forall w L n m smp w',
  layer_ready w L n m -> inputs_ok w L -> solver_exact w L m smp -> choice_in_range w L n m smp ->
  (forall l i, (l < m)%nat -> (i < n)%nat -> exists up, kernel_code w L l i = either (k_scale w L) (nth i (nth l (ql_K L) []) 0%Q) up + k_zp w L) ->
  (forall l, (l < m)%nat -> exists up, bias_code w L l = either (in_scale w L * k_scale w L) (nth l (ql_B L) 0%Q) up) ->
  adaround_qubo w L smp = Ok w' ->
  forall l, (l < m)%nat ->
    (fit w L l (kernel_row w' L n l) (bias_code w' L l) <= fit w L l (kernel_row w L n l) (bias_code w L l))%Q.
Proof.
  intros w L n m smp w' R IX SE CR FK FB E l Hl. destruct (FB l Hl) as (c & Hc).
  set (v i := Z.eqb (kernel_code w L l i) (either (k_scale w L) (nth i (nth l (ql_K L) []) 0%Q) true + k_zp w L)).
  assert (K : kernel_row w L n l = map (fun i => either (k_scale w L) (nth i (nth l (ql_K L) []) 0%Q) (v i) + k_zp w L) (seq 0 n)).
  { unfold kernel_row. apply map_ext_in. intros i Hi. apply in_seq in Hi. destruct (FK l i Hl ltac:(lia)) as (up & Hu). unfold v.
    destruct (Z.eqb_spec (kernel_code w L l i) (either (k_scale w L) (nth i (nth l (ql_K L) []) 0%Q) true + k_zp w L)) as [A|A]; [exact A|].
    destruct up; [contradiction|exact Hu]. }
  rewrite K, Hc. apply (C76_deployed_optimal w L n m smp w'); assumption.
Qed.
(** A freshly built tensor node (round to nearest) holds roundings down or up whenever its values fit the dtype. *)
Theorem C76_fresh_codes : forall s d fp, within_int32 d -> forall n, n = with_tensor (node_new s 0 d) fp ->
  forall t idx, n_tens n = Some t -> (inject_Z (gmin d) <= nd_get fp idx / s <= inject_Z (gmax d))%Q ->
  exists up, nd_get (t_codes t) idx = either s (nd_get fp idx) up.
Proof.
  intros s d fp HD n -> t idx T (A & B). cbn [with_tensor n_tens node_new] in T. injection T as <-. cbn [t_codes n_q n_zp n_scale node_new].
  unfold quantize. cbn [nd_get nd_map]. rewrite q_round_clip by exact HD.
  set (y := (nd_get fp idx / s)%Q) in *. destruct (nearest_is_choice y) as (up & U). exists up. unfold either. fold y. change (if up then 1 else 0) with (Zbit up). rewrite <- U.
  assert (E : (y + inject_Z 0 + (1#2) == y + (1#2))%Q) by (change (inject_Z 0) with 0%Q; ring). rewrite (Qfloor_comp _ _ E).
  rewrite clipZ_id; [reflexivity|]. split; [apply Qfloor_ge; lra|].
  assert (Qfloor (y + (1#2)) < gmax d + 1) by (apply Qfloor_lt; rewrite inject_Z_plus; change (inject_Z 1) with 1%Q; lra). lia.
Qed.

(** ** Whole networks *)
Definition targets_of (a : alayer) : list nat := match a with ADense L _ => [ql_kernel L; ql_bias L] | APlain => [] end.
Lemma ready_frame w w' L n m : (forall j, same_but_policy (w j) (w' j)) -> layer_ready w L n m ->
  layer_ready w' L n m /\ in_scale w' L = in_scale w L /\ k_scale w' L = k_scale w L /\ k_zp w' L = k_zp w L /\
  n_q (w' (ql_kernel L)) = n_q (w (ql_kernel L)) /\ n_q (w' (ql_bias L)) = n_q (w (ql_bias L)).
Proof.
  intros F (A & B & C & D & E & HK & HB & NE).
  assert (SI : in_scale w' L = in_scale w L) by (unfold in_scale; destruct (F (ql_input L)) as (X & _); congruence).
  assert (SK : k_scale w' L = k_scale w L) by (unfold k_scale; destruct (F (ql_kernel L)) as (X & _); congruence).
  assert (SZ : k_zp w' L = k_zp w L) by (unfold k_zp; destruct (F (ql_kernel L)) as (X & _); congruence).
  assert (HH : forall i s z shape f, holds w i s z shape f -> holds w' i s z shape f).
  { intros i s z shape f (H1 & H2 & H3 & t & H4 & H5 & H6). destruct (F i) as (X & Y & _). unfold holds.
    assert (n_scale (w' i) = n_scale (w i)) as -> by congruence. assert (n_zp (w' i) = n_zp (w i)) as -> by congruence. assert (n_q (w' i) = n_q (w i)) as -> by congruence.
    split; [exact H1|]. split; [exact H2|]. split; [exact H3|]. rewrite H4 in Y. cbn in Y. destruct (n_tens (w' i)) as [t'|]; [|discriminate]. cbn in Y.
    exists t'. split; [reflexivity|]. assert (t_fp t' = t_fp t) as -> by congruence. auto. }
  split; [|split; [exact SI|split; [exact SK|split; [exact SZ|split; [destruct (F (ql_kernel L)) as (X & _); congruence|destruct (F (ql_bias L)) as (X & _); congruence]]]]].
  unfold layer_ready. rewrite SI, SK, SZ. repeat (split; [solve [auto]|]). auto.
Qed.
(** Rounding a network layer by layer gives every layer the codes its own QUBO alone determines: the order of the layers
    and what was decided for the others do not matter (and neither does the network's loss, which is never evaluated). *)
Theorem C76_network : forall ls w,
  NoDup (flat_map targets_of ls) ->
  (forall L smp, In (ADense L smp) ls -> exists n m, layer_ready w L n m) ->
  exists w', adaround_net w ls = Ok w' /\
    (forall L smp n m, In (ADense L smp) ls -> layer_ready w L n m -> rounded w w' L n m smp) /\
    (forall j, ~ In j (flat_map targets_of ls) -> w' j = w j).
Proof.
  intros ls. 
  assert (G : forall ls w, NoDup (flat_map targets_of ls) -> (forall L smp, In (ADense L smp) ls -> exists n m, layer_ready w L n m) ->
    exists w', adaround_net w ls = Ok w' /\ (forall j, same_but_policy (w j) (w' j)) /\
    (forall L smp n m, In (ADense L smp) ls -> layer_ready w L n m -> rounded w w' L n m smp) /\
    (forall j, ~ In j (flat_map targets_of ls) -> w' j = w j)).
  { clear ls. induction ls as [|a ls IH]; intros w ND RD.
    - exists w. split; [reflexivity|]. split; [intros; apply sbp_refl|]. split; [intros L smp n m []|reflexivity].
    - unfold adaround_net. cbn [fold_left rbind]. cbn [flat_map] in ND.
      destruct a as [L smp|].
      + cbn [targets_of] in ND. cbn [app] in ND. cbn [adaround_layer].
        destruct (RD L smp (or_introl eq_refl)) as (n & m & R).
        destruct (C76_codes w L n m smp R) as (w1 & E1 & RO & OT & FR). rewrite E1.
        assert (ND' : NoDup (flat_map targets_of ls)) by (inversion ND as [|? ? _ N1]; inversion N1; assumption).
        destruct (IH w1 ND') as (w2 & E2 & F2 & R2 & O2).
        { intros L' smp' I'. destruct (RD L' smp' (or_intror I')) as (n' & m' & R'). exists n', m'. exact (proj1 (ready_frame _ _ _ _ _ FR R')). }
        exists w2. split; [exact E2|]. split; [intros j; eapply sbp_trans; [apply FR|apply F2]|].
        assert (NK : ~ In (ql_kernel L) (flat_map targets_of ls)) by (inversion ND as [|? ? N0 _]; intros X; apply N0; now right).
        assert (NB : ~ In (ql_bias L) (flat_map targets_of ls)) by (inversion ND as [|? ? _ N1]; inversion N1; assumption).
        split.
        * intros L' smp' n' m' [X|X] R'.
          -- assert (L' = L /\ smp' = smp) as (-> & ->) by (split; congruence). destruct (C76_codes w L n' m' smp R') as (w1' & E1' & RO' & _).
             assert (w1' = w1) by congruence. subst w1'. destruct RO' as (RK & RB). split; intros; unfold kernel_code, bias_code; rewrite O2 by assumption; [now apply RK|now apply RB].
          -- destruct (ready_frame _ _ _ _ _ FR R') as (R1 & SI & SK & SZ & QK & QB). specialize (R2 L' smp' n' m' X R1).
             destruct R2 as (RK & RB). rewrite SI, SK, SZ, QK, QB in *. split; [exact RK|exact RB].
        * intros j J. cbn [flat_map targets_of app] in J. rewrite O2 by (intros X; apply J; right; now right). apply OT; intros ->; apply J; [now left|right; now left].
      + cbn [adaround_layer]. destruct (IH w ND) as (w2 & E2 & F2 & R2 & O2); [intros L smp I'; apply (RD L smp); now right|].
        exists w2. split; [exact E2|]. split; [exact F2|]. split; [|exact O2]. intros L smp n m [X|X]; [discriminate|now apply R2]. }
  intros w ND RD. destruct (G ls w ND RD) as (w' & A & _ & B & C). exists w'. split; [exact A|]. split; [exact B|exact C].
Qed.
(** No calibration rows: the optimizer fails. *)
Theorem C76_no_data : forall w L smp, ql_X L = [] -> adaround_qubo w L smp = Err EIndexError.
Proof. intros w L smp E. unfold adaround_qubo, qubo_dense, inst_of. cbn [iN]. rewrite E. reflexivity. Qed.

(** ** Counterexamples: one row, two inputs, one neuron, all scales 1 *)
Definition small_world (w1 w2 b : Q) : world := fun i => match i with
  | 1%nat => with_tensor (node_new 1 0 int8) (mknd [1%nat; 2%nat] (at2 [[w1; w2]]))
  | 2%nat => with_tensor (node_new 1 0 int32) (mknd [1%nat] (at1 [b]))
  | _ => node_new 1 0 int8 end.
Definition small_layer (w1 w2 b x1 x2 o : Q) : qlayer := mkql 0 1 2 None [[w1; w2]] [b] [[x1; x2]] [[o]].
Lemma small_ready w1 w2 b x1 x2 o : layer_ready (small_world w1 w2 b) (small_layer w1 w2 b x1 x2 o) 2 1.
Proof.
  split; [discriminate|]. split; [repeat constructor|]. split; [reflexivity|]. split; [reflexivity|]. split; [reflexivity|].
  split; [|split; [|discriminate]].
  - split; [reflexivity|]. split; [reflexivity|]. split; [unfold within_int32; cbn; lia|]. eexists. split; [reflexivity|]. split; [reflexivity|]. reflexivity.
  - split; [reflexivity|]. split; [reflexivity|]. split; [unfold within_int32; cbn; lia|]. eexists. split; [reflexivity|]. split; [reflexivity|]. reflexivity.
Qed.
Definition small_in (x : Q) : Prop := (-(128) <= x <= 127)%Q /\ forall k, ~ (x == inject_Z k + (1#2))%Q.
Lemma small_inputs w1 w2 b x1 x2 o : small_in x1 -> small_in x2 -> inputs_ok (small_world w1 w2 b) (small_layer w1 w2 b x1 x2 o).
Proof.
  intros H1 H2. split; [unfold within_int32; cbn; lia|]. intros r x R X. cbn in R. destruct R as [<- | []].
  assert (small_in x) as (A & B) by (cbn in X; destruct X as [<- | [<- | []]]; assumption). unfold in_scale. cbn [small_layer ql_input small_world node_new n_scale n_zp n_q int8 gmin gmax].
  change (inject_Z (-128)) with (-(128))%Q. change (inject_Z 127) with 127%Q. change (inject_Z 0) with 0%Q.
  assert (E : (x / 1 == x)%Q) by field. split; [rewrite E; lra|]. intros k K. rewrite E in K. exact (B k K).
Qed.
Definition bits3 (v1 v2 c : bool) : nat -> nat -> bool := fun _ u => match u with 1%nat => v1 | 2%nat => v2 | _ => c end.
(** an assignment is optimal as soon as its error is minimal among the eight *)
Lemma small_exact w1 w2 b x1 x2 o v1 v2 c :
  let I := inst_of (small_world w1 w2 b) (small_layer w1 w2 b x1 x2 o) in
  let e v1 v2 c := mse I 0 (fun i => nth i [Qfloor (w1 / 1) + Zbit v1; Qfloor (w2 / 1) + Zbit v2] 0) (Qfloor (b / (1 * 1)) + Zbit c) in
  (forall u1 u2 d, (e v1 v2 c <= e u1 u2 d)%Q) ->
  solver_exact (small_world w1 w2 b) (small_layer w1 w2 b x1 x2 o) 1 (bits3 v1 v2 c).
Proof.
  intros I e MIN l D Hl HD y. assert (l = 0%nat) by lia. subst l.
  assert (R := small_ready w1 w2 b x1 x2 o). assert (WF := inst_wf _ _ _ _ R). fold I in WF, HD.
  assert (H0 : (0 < iOut I)%nat) by (cbn; lia).
  assert (EE : forall x, (energy D x == e (x 1%nat) (x 2%nat) (x 3%nat) - mse I 0 (weight I 0 (fun _ => false)) (biasq I 0 false))%Q).
  { intros x. destruct (C38_energy_is_mse I 0 x WF H0) as (D' & HD' & EN). assert (D' = D) by congruence. subst D'. rewrite EN.
    unfold Qminus. apply Qplus_comp; [|reflexivity]. unfold e, mse. apply Qmult_comp; [|reflexivity]. apply sumQ_map_ext. intros s _.
    assert (N : forall f g u, (f 0%nat = g 0%nat) -> (f 1%nat = g 1%nat) -> (neuron_out I 0 s f u == neuron_out I 0 s g u)%Q).
    { intros f g u F0 F1. unfold neuron_out. change (iIn I) with 2%nat. cbn [seq map]. rewrite F0, F1. reflexivity. }
    rewrite (N _ (fun i => nth i [Qfloor (w1 / 1) + Zbit (x 1%nat); Qfloor (w2 / 1) + Zbit (x 2%nat)] 0)); [reflexivity|reflexivity|reflexivity]. }
  rewrite !EE. pose proof (MIN (y 1%nat) (y 2%nat) (y 3%nat)) as MN. cbn [bits3]. lra.
Qed.
Lemma not_half_Z x z : (x == inject_Z z)%Q -> forall k, ~ (x == inject_Z k + (1#2))%Q.
Proof.
  intros E k K. rewrite E in K. assert (X : (inject_Z (2 * z) == inject_Z (2 * k + 1))%Q).
  { rewrite inject_Z_plus, !inject_Z_mult. change (inject_Z 2) with 2%Q. change (inject_Z 1) with 1%Q. rewrite K. ring. }
  assert (2 * z = 2 * k + 1) by (apply inject_Z_injective; exact X). lia.
Qed.
(** (a) Saturation.  Exact solver, honest float outputs; symmetric calibration always leaves a weight at the end of the
    range (127), "up" saturates, and the exported layer is worse than before adaptive rounding. *)
Theorem C76_saturation_refuted : exists w L smp w',
  layer_ready w L 2 1 /\ inputs_ok w L /\ solver_exact w L 1 smp /\
  ql_O L = map (fun x => map (fun l => (sumQ (map (fun i => nth i (nth l (ql_K L) []) 0 * nth i x 0) (seq 0 2)) + nth l (ql_B L) 0)%Q) (seq 0 1)) (ql_X L) /\
  adaround_qubo w L smp = Ok w' /\
  (fit w L 0 (kernel_row w L 2 0) (bias_code w L 0) == 100)%Q /\
  (fit w L 0 (kernel_row w' L 2 0) (bias_code w' L 0) == 400)%Q.
Proof.
  set (a := 127%Q). set (b := (106#10)%Q). set (x1 := (2554#127)%Q). set (x2 := 10%Q).
  set (o := (sumQ (map (fun i => nth i [a; b] 0 * nth i [x1; x2] 0) (seq 0 2)) + 0)%Q).
  exists (small_world a b 0), (small_layer a b 0 x1 x2 o), (bits3 true false false).
  destruct (C76_codes (small_world a b 0) (small_layer a b 0 x1 x2 o) 2 1 (bits3 true false false) (small_ready _ _ _ _ _ _)) as (w' & E & (RK & RB) & _).
  exists w'. split; [apply small_ready|]. split.
  { apply small_inputs; split.
    - unfold x1. split; lra.
    - intros k K. unfold x1 in K. destruct (Z_le_gt_dec k 19) as [H|H].
      + assert (X : (inject_Z k <= 19)%Q) by (rewrite (Zle_Qle k 19) in H; exact H). lra.
      + assert (H' : 20 <= k) by lia. assert (X : (20 <= inject_Z k)%Q) by (rewrite (Zle_Qle 20 k) in H'; exact H'). lra.
    - unfold x2. split; lra.
    - apply (not_half_Z _ 10). reflexivity. }
  split.
  { apply small_exact. intros u1 u2 d. destruct u1, u2, d; apply Qle_bool_iff; vm_compute; reflexivity. }
  split; [reflexivity|]. split; [exact E|]. split; [vm_compute; reflexivity|].
  unfold kernel_row. cbn [seq map]. rewrite (RK 0%nat 0%nat), (RK 0%nat 1%nat), (RB 0%nat) by lia. vm_compute. reflexivity.
Qed.
(** (b) Activations.  The float outputs a layer with a LUT activation (tanh, sigmoid: values in [-1, 1]) is given are the
    activated ones, but the QUBO compares them with the accumulator before the activation.  Whatever the activation, an
    exact solver can make the layer's accumulator worse than before, although nothing saturates. *)
Theorem C76_activation_refuted : forall act : Q -> Q, (forall y, -(1) <= act y <= 1)%Q ->
  exists w L smp w' pre,
  layer_ready w L 2 1 /\ inputs_ok w L /\ solver_exact w L 1 smp /\ choice_in_range w L 2 1 smp /\
  pre = map (fun x => map (fun l => (sumQ (map (fun i => nth i (nth l (ql_K L) []) 0 * nth i x 0) (seq 0 2)) + nth l (ql_B L) 0)%Q) (seq 0 1)) (ql_X L) /\
  ql_O L = map (map act) pre /\
  adaround_qubo w L smp = Ok w' /\
  let L0 := mkql (ql_input L) (ql_kernel L) (ql_bias L) (ql_lut L) (ql_K L) (ql_B L) (ql_X L) pre in
  (fit w L0 0 (kernel_row w L 2 0) (bias_code w L 0) == 16)%Q /\
  (fit w L0 0 (kernel_row w' L 2 0) (bias_code w' L 0) == 36)%Q.
Proof.
  intros act A. set (a := 127%Q). set (b := (1006#10)%Q).
  set (y := (sumQ (map (fun i => nth i [a; b] 0 * nth i [0; 10] 0) (seq 0 2)) + 0)%Q).
  exists (small_world a b 0), (small_layer a b 0 0 10 (act y)), (bits3 false false false).
  destruct (C76_codes (small_world a b 0) (small_layer a b 0 0 10 (act y)) 2 1 (bits3 false false false) (small_ready _ _ _ _ _ _)) as (w' & E & (RK & RB) & _).
  exists w', [[y]]. split; [apply small_ready|]. split.
  { apply small_inputs; split; [lra|apply (not_half_Z _ 0); reflexivity|lra|apply (not_half_Z _ 10); reflexivity]. }
  split.
  { apply small_exact. intros u1 u2 d. set (I := inst_of _ _).
    assert (M1 : forall f u, (mse I 0 f u == (act y - neuron_out I 0 0 f u) ^ 2)%Q).
    { intros f u. unfold mse. change (iN I) with 1%nat. cbn [seq map sumQ fold_right]. change (iO I 0 0) with (act y).
      change (inject_Z (Z.of_nat 1)) with 1%Q. field. }
    rewrite !M1. assert (SQ : forall p q, (1 <= p -> p <= q -> (act y - p) ^ 2 <= (act y - q) ^ 2)%Q).
    { intros p q P1 P2. destruct (A y) as (_ & U). cut ((0 <= (q - p) * (q + p - 2 * act y))%Q); [intros X; setoid_replace ((act y - q) ^ 2)%Q with ((act y - p) ^ 2 + (q - p) * (q + p - 2 * act y))%Q by ring; lra|].
      apply Qmult_le_0_compat; lra. }
    apply SQ; [apply Qle_bool_iff; vm_compute; reflexivity|]. destruct u1, u2, d; apply Qle_bool_iff; vm_compute; reflexivity. }
  split.
  { split; [intros l i Hl Hi; destruct l; [|lia]; destruct i as [|[|i]]; [| |lia]; split; vm_compute; congruence|intros l Hl; destruct l; [|lia]; split; vm_compute; congruence]. }
  split; [reflexivity|]. split; [reflexivity|]. split; [exact E|]. cbv zeta. split; [vm_compute; reflexivity|].
  unfold kernel_row. cbn [seq map]. rewrite (RK 0%nat 0%nat), (RK 0%nat 1%nat), (RB 0%nat) by lia. vm_compute. reflexivity.
Qed.
(** (c) Ties.  np.round rounds halves to even, the exported input quantizer rounds them up, so at a half-way input the
    QUBO optimises a different layer. *)
Theorem C76_ties_refuted : exists w L smp w',
  layer_ready w L 2 1 /\ solver_exact w L 1 smp /\ choice_in_range w L 2 1 smp /\
  adaround_qubo w L smp = Ok w' /\
  (fit w L 0 (kernel_row w L 2 0) (bias_code w L 0) < fit w L 0 (kernel_row w' L 2 0) (bias_code w' L 0))%Q.
Proof.
  set (a := (4#10)%Q). set (o := (2#10)%Q).
  exists (small_world a 0 0), (small_layer a 0 0 (1#2) 0 o), (bits3 true false false).
  destruct (C76_codes (small_world a 0 0) (small_layer a 0 0 (1#2) 0 o) 2 1 (bits3 true false false) (small_ready _ _ _ _ _ _)) as (w' & E & (RK & RB) & _).
  exists w'. split; [apply small_ready|]. split.
  { apply small_exact. intros u1 u2 d. destruct u1, u2, d; apply Qle_bool_iff; vm_compute; reflexivity. }
  split.
  { split; [intros l i Hl Hi; destruct l; [|lia]; destruct i as [|[|i]]; [| |lia]; split; vm_compute; congruence|intros l Hl; destruct l; [|lia]; split; vm_compute; congruence]. }
  split; [exact E|]. unfold kernel_row at 2. cbn [seq map]. rewrite (RK 0%nat 0%nat), (RK 0%nat 1%nat), (RB 0%nat) by lia. vm_compute. reflexivity.
Qed.
(** The hypotheses of the positive theorems are met, with a strict improvement: weights 0.6 and 0.6, inputs 10 and 10. *)
Example C76_example : exists smp w',
  let w := small_world (6#10) (6#10) 0 in let L := small_layer (6#10) (6#10) 0 10 10 12 in
  layer_ready w L 2 1 /\ inputs_ok w L /\ solver_exact w L 1 smp /\ choice_in_range w L 2 1 smp /\
  adaround_qubo w L smp = Ok w' /\ kernel_row w L 2 0 = [1; 1] /\ kernel_row w' L 2 0 = [0; 1] /\ bias_code w' L 0 = 1 /\
  (fit w L 0 (kernel_row w L 2 0) (bias_code w L 0) == 64)%Q /\ (fit w L 0 (kernel_row w' L 2 0) (bias_code w' L 0) == 1)%Q.
Proof.
  set (w := small_world (6#10) (6#10) 0). set (L := small_layer (6#10) (6#10) 0 10 10 12).
  exists (bits3 false true true).
  destruct (C76_codes w L 2 1 (bits3 false true true) (small_ready _ _ _ _ _ _)) as (w' & E & (RK & RB) & _).
  exists w'. cbv zeta. split; [apply small_ready|]. split.
  { apply small_inputs; split; [lra|apply (not_half_Z _ 10); reflexivity|lra|apply (not_half_Z _ 10); reflexivity]. }
  split.
  { apply small_exact. intros u1 u2 d. destruct u1, u2, d; apply Qle_bool_iff; vm_compute; reflexivity. }
  split.
  { split; [intros l i Hl Hi; destruct l; [|lia]; destruct i as [|[|i]]; [| |lia]; split; vm_compute; congruence|intros l Hl; destruct l; [|lia]; split; vm_compute; congruence]. }
  split; [exact E|]. split; [vm_compute; reflexivity|].
  assert (KR : kernel_row w' L 2 0 = [0; 1]) by (unfold kernel_row; cbn [seq map]; rewrite (RK 0%nat 0%nat), (RK 0%nat 1%nat) by lia; vm_compute; reflexivity).
  assert (BR : bias_code w' L 0 = 1) by (rewrite (RB 0%nat) by lia; vm_compute; reflexivity).
  rewrite KR, BR. split; [reflexivity|]. split; [reflexivity|]. split; vm_compute; reflexivity.
Qed.
