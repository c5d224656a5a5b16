(** Properties C38-C42: the QUBO formulation of adaptive rounding. *)
From Verif Require Import Base BaseProofs QuboModel SpecQubo QuboProofs QuboEnergy QuboMore DtypeModel QuantModel QuantProofs PropCore.
Open Scope Q_scope.
Open Scope list_scope.

(** ** C38: energy = MSE - MSE of rounding everything down. *)
Theorem C38_energy_is_mse_class : forall I l x, wf_inst I -> (l < iOut I)%nat ->
  energy (dict_class I l) x ==
  mse I l (weight I l (fun i => x (kvar I l i))) (biasq I l (x (bvar I l)))
  - mse I l (weight I l (fun _ => false)) (biasq I l false).
Proof. intros I l x W Hl. rewrite (dict_class_eq I l Hl). exact (energy_mse I W l x). Qed.

(** The pipeline whose result is returned: dictionary of neuron l in the run of the optimizer. *)
Definition dict_free (I : inst) (l : nat) : res dict :=
  do st <- run_free I;
  do t <- py_index (fs_out st) (Z.of_nat l);
  Ok (unir (t1 t) (t2 t) (t3 t) (t4 t) []).

Lemma run_free_ok I : exists st, run_free I = Ok st /\ fs_total st = total_upto I (iOut I) /\
  fs_out st = map (terms_class I) (seq 0 (iOut I)).
Proof.
  eexists. split; [apply (run_free_spec I (iOut I)); lia|]. split; reflexivity.
Qed.
Lemma dict_free_eq I l : (l < iOut I)%nat -> dict_free I l = Ok (dict_class I l).
Proof.
  intros Hl. unfold dict_free. destruct (run_free_ok I) as (st & -> & _ & E). cbn [rbind]. rewrite E.
  destruct (py_index_nonneg (map (terms_class I) (seq 0 (iOut I))) (Z.of_nat l)) as (t & Ht & ->).
  - rewrite map_length, seq_length. lia.
  - rewrite Nat2Z.id, nth_error_map in Ht. rewrite (nth_error_nth' _ 0%nat) in Ht by (now rewrite seq_length).
    rewrite seq_nth in Ht by exact Hl. simpl in Ht. injection Ht as <-. reflexivity.
Qed.

Theorem C38_energy_is_mse : forall I l x, wf_inst I -> (l < iOut I)%nat ->
  exists D, dict_free I l = Ok D /\
  energy D x ==
  mse I l (weight I l (fun i => x (kvar I l i))) (biasq I l (x (bvar I l)))
  - mse I l (weight I l (fun _ => false)) (biasq I l false).
Proof.
  intros I l x W Hl. exists (dict_class I l). split; [now apply dict_free_eq|].
  now apply C38_energy_is_mse_class.
Qed.

(** ** C39 *)
Definition exact_minimiser (D : dict) (x : nat -> bool) : Prop := forall y, energy D x <= energy D y.

Theorem C39_optimum : forall I l D x, wf_inst I -> (l < iOut I)%nat ->
  dict_free I l = Ok D -> exact_minimiser D x ->
  exists row b, decode (iIn I) (sample_row D x) = Ok (row, b) /\ length row = iIn I /\
    forall v c, mse I l (weight I l (fun i => nth i row false)) (biasq I l b)
                <= mse I l (weight I l v) (biasq I l c).
Proof.
  intros I l D x W Hl HD Hm. rewrite (dict_free_eq I l Hl) in HD. injection HD as <-.
  rewrite (dict_class_eq I l Hl) in *.
  exists (map (fun i => x (kvar I l i)) (seq 0 (iIn I))), (x (bvar I l)).
  split; [now apply decode_canon|]. split; [now rewrite map_length, seq_length|].
  intros v c.
  assert (M1 : mse_choice I l (fun i => nth i (map (fun i => x (kvar I l i)) (seq 0 (iIn I))) false) (x (bvar I l))
             == mse_choice I l (fun i => x (kvar I l i)) (x (bvar I l))).
  { unfold mse_choice, mse. apply Qmult_comp; [|reflexivity]. apply sumQ_map_ext. intros s _.
    assert (E : neuron_out I l s (weight I l (fun i => nth i (map (fun i => x (kvar I l i)) (seq 0 (iIn I))) false)) (biasq I l (x (bvar I l)))
       == neuron_out I l s (weight I l (fun i => x (kvar I l i))) (biasq I l (x (bvar I l)))).
    { unfold neuron_out. apply Qplus_comp; [|reflexivity]. apply sumQ_map_ext. intros i Hi.
      apply in_seq in Hi. unfold weight.
      rewrite (nth_indep _ false (x (kvar I l 0%nat))) by (rewrite map_length, seq_length; lia).
      rewrite (map_nth (fun i => x (kvar I l i))). rewrite seq_nth by lia. reflexivity. }
    rewrite E. reflexivity. }
  fold (mse_choice I l (fun i => nth i (map (fun i => x (kvar I l i)) (seq 0 (iIn I))) false) (x (bvar I l))).
  fold (mse_choice I l v c). rewrite M1.
  set (y u := if (u =? bvar I l)%nat then c else v (u - (l * iIn I) - 1)%nat).
  specialize (Hm y). rewrite !(energy_mse I W l) in Hm.
  assert (M2 : mse_choice I l (fun i => y (kvar I l i)) (y (bvar I l)) == mse_choice I l v c).
  { unfold mse_choice, mse. apply Qmult_comp; [|reflexivity]. apply sumQ_map_ext. intros s _.
    assert (E : neuron_out I l s (weight I l (fun i => y (kvar I l i))) (biasq I l (y (bvar I l)))
       == neuron_out I l s (weight I l v) (biasq I l c)).
    { unfold neuron_out. unfold y at 2. rewrite Nat.eqb_refl. apply Qplus_comp; [|reflexivity].
      apply sumQ_map_ext. intros i Hi. apply in_seq in Hi. unfold weight, y.
      pose proof (kv_lt I l i Hl ltac:(lia)).
      destruct (Nat.eqb_spec (kvar I l i) (bvar I l)) as [E|_]; [unfold bvar in *; lia|].
      replace (kvar I l i - l * iIn I - 1)%nat with i by (unfold kvar; lia). reflexivity. }
    rewrite E. reflexivity. }
  rewrite M2 in Hm. lra.
Qed.

(** Round to nearest (floor(y + 1/2)) is one of the choices, so the optimum is never worse. *)
Lemma nearest_is_choice y : exists b, Qfloor (y + (1#2)) = (Qfloor y + Zbit b)%Z.
Proof.
  destruct (Qfloor_bounds y) as [A B]. 
  destruct (Qlt_le_dec (y - inject_Z (Qfloor y)) (1#2)) as [H|H].
  - exists false. cbn [Zbit]. rewrite Z.add_0_r. apply Qfloor_iff. split; lra.
  - exists true. cbn [Zbit]. apply Qfloor_iff. rewrite inject_Z_plus. change (inject_Z 1) with 1. split; lra.
Qed.
Theorem C39_beats_round_to_nearest : forall I l D x, wf_inst I -> (l < iOut I)%nat ->
  dict_free I l = Ok D -> exact_minimiser D x ->
  exists row b, decode (iIn I) (sample_row D x) = Ok (row, b) /\
    mse I l (weight I l (fun i => nth i row false)) (biasq I l b)
    <= mse I l (fun i => Qfloor (iK I l i / i_sk I + (1#2))) (Qfloor (iB I l / (i_sk I * i_si I) + (1#2))).
Proof.
  intros I l D x W Hl HD Hm. destruct (C39_optimum I l D x W Hl HD Hm) as (row & b & Hd & _ & H).
  exists row, b. split; [exact Hd|].
  destruct (nearest_is_choice (iB I l / (i_sk I * i_si I))) as [c Hc].
  set (v i := if Z.eq_dec (Qfloor (iK I l i / i_sk I + (1#2))) (Qfloor (iK I l i / i_sk I)) then false else true).
  specialize (H v c). eapply Qle_trans; [exact H|]. rewrite Hc. fold (biasq I l c).
  apply Qle_lteq. right. unfold mse. apply Qmult_comp; [|reflexivity]. apply sumQ_map_ext. intros s _.
  assert (E : neuron_out I l s (weight I l v) (biasq I l c) ==
    neuron_out I l s (fun i => Qfloor (iK I l i / i_sk I + (1#2))) (biasq I l c)).
  { unfold neuron_out. apply Qplus_comp; [|reflexivity]. apply sumQ_map_ext. intros i _.
    replace (weight I l v i) with (Qfloor (iK I l i / i_sk I + (1#2))); [reflexivity|].
    unfold weight, v. destruct (nearest_is_choice (iK I l i / i_sk I)) as [w Hw].
    destruct (Z.eq_dec _ _) as [e|ne]; cbn [Zbit]; [lia|]. rewrite Hw in *. destruct w; cbn [Zbit] in *; lia. }
  rewrite E. reflexivity.
Qed.
(** An exact minimiser always exists, so C39 is never vacuous. *)
Theorem C39_minimiser_exists : forall D, exists x, exact_minimiser D x.
Proof. exact minimiser_exists. Qed.

(** The decoded bits, used as rounding policy of the quantizer, give exactly the codes the MSE
    speaks about (offset by the zero point, as long as nothing saturates). *)
Theorem C39_policy_link : forall I d zp l i (v : nat -> bool),
  within_int32 d -> (gmin d <= weight I l v i + zp <= gmax d)%Z ->
  nd_get (quantize d (scalar (iK I l i)) zp (i_sk I) (Some (scalar (if v i then 1 else 0)))) []
  = (weight I l v i + zp)%Z.
Proof.
  intros I d zp l i v Hd H. rewrite quantize_policy_same by reflexivity. unfold scalar; cbn [nd_get].
  rewrite quant1p_binary by exact Hd. unfold weight, Zbit in *.
  rewrite clipZ_id; lia.
Qed.

(** ** C40 *)
Theorem C40_pipelines_agree : forall I l, wf_inst I -> (l < iOut I)%nat ->
  dict_free I l = Ok (dict_class I l).
Proof. intros I l _. apply dict_free_eq. Qed.
Theorem C40_same_term_dictionaries : forall I, wf_inst I ->
  exists st, run_free I = Ok st /\ fs_out st = map (terms_class I) (seq 0 (iOut I)).
Proof. intros I _. destruct (run_free_ok I) as (st & A & _ & B). eauto. Qed.

(** ** C41 *)
Definition dkeys (D : dict) : list (nat * nat) := map fst D.
Theorem C41_neurons_disjoint : forall I l l' k, (l < iOut I)%nat -> (l' < iOut I)%nat -> l <> l' ->
  In k (dkeys (dict_class I l)) -> In k (dkeys (dict_class I l')) -> False.
Proof.
  intros I l l' k Hl Hl' Hne A B. rewrite dict_class_eq in A, B by assumption.
  apply Hne. eapply (canon_disjoint I); eauto.
Qed.
Theorem C41_terms_disjoint : forall I l, (l < iOut I)%nat ->
  let t := terms_class I l in
  NoDup (dkeys (t1 t) ++ dkeys (t2 t) ++ dkeys (t3 t) ++ dkeys (t4 t)) /\
  dict_class I l = t1 t ++ t2 t ++ t3 t ++ t4 t.
Proof.
  intros I l Hl t. unfold t. rewrite dict_class_eq by exact Hl. rewrite terms_class_eq by exact Hl.
  cbn [t1 t2 t3 t4]. split; [|reflexivity].
  pose proof (nodup_canon I l Hl) as X. unfold canon in X. rewrite !keys_app in X. exact X.
Qed.
Theorem C41_merged_energy : forall I x, wf_inst I ->
  exists st, run_free I = Ok st /\
  energy (fs_total st) x == sumQ (map (fun l => energy (dict_class I l) x) (seq 0 (iOut I))).
Proof.
  intros I x _. destruct (run_free_ok I) as (st & A & B & _). exists st. split; [exact A|].
  rewrite B, energy_total. apply sumQ_map_ext. intros l Hl. apply in_seq in Hl.
  rewrite dict_class_eq by lia. reflexivity.
Qed.
(** The dense matrix written to disk: quadratic form over variables 1 .. n*m+m. *)
Theorem C41_matrix_energy : forall I x, wf_inst I ->
  let T := (iOut I * iIn I + iOut I)%nat in
  let M := for_range (iOut I) (fun l M => matrix_calculation I (terms_class I l) M) (fun _ _ => 0) in
  sumQ (map (fun a => sumQ (map (fun b => M a b * (bit (x (a + 1)%nat) * bit (x (b + 1)%nat))) (seq 0 T))) (seq 0 T))
  == sumQ (map (fun l => energy (dict_class I l) x) (seq 0 (iOut I))).
Proof.
  intros I x W T M. destruct (C41_merged_energy I x W) as (st & A & B). rewrite <- B.
  destruct (run_free_ok I) as (st' & A' & B' & _). rewrite A in A'. injection A' as <-. rewrite B'.
  exact (matrix_energy I x).
Qed.

(** ** C42 *)
Theorem C42_variable_order : forall I l D, wf_inst I -> (l < iOut I)%nat -> dict_free I l = Ok D ->
  variables D = map (fun i => l * iIn I + i + 1)%nat (seq 0 (iIn I)) ++ [(iIn I * iOut I + 1 + l)%nat].
Proof.
  intros I l D _ Hl H. rewrite dict_free_eq in H by exact Hl. injection H as <-.
  rewrite dict_class_eq by exact Hl. now apply variables_canon.
Qed.
Theorem C42_decode : forall I l D x, wf_inst I -> (l < iOut I)%nat -> dict_free I l = Ok D ->
  decode (iIn I) (sample_row D x) =
  Ok (map (fun i => x (l * iIn I + i + 1)%nat) (seq 0 (iIn I)), x (iIn I * iOut I + 1 + l)%nat).
Proof.
  intros I l D x _ Hl H. rewrite dict_free_eq in H by exact Hl. injection H as <-.
  rewrite dict_class_eq by exact Hl. now apply decode_canon.
Qed.

(** ** A concrete instance: 2 samples, 2 inputs (one of them always 0), 2 neurons. *)
Definition ex : inst := {|
  iN := 2; iIn := 2; iOut := 2;
  iX := fun s i => if (i =? 0)%nat then (inject_Z (Z.of_nat s) + (3#4)) else 0;
  iK := fun l i => inject_Z (Z.of_nat l) + (1#3);
  iB := fun l => (7#10);
  iO := fun s l => inject_Z (Z.of_nat (s + l)) + (9#10);
  i_si := 1#2; i_sk := 1#2; i_sb := 1#4 |}.
Example C38_example :
  wf_inst ex /\
  map fst (dict_class ex 1) = [(3, 3); (4, 4); (6, 6); (3, 6); (6, 3)]%nat /\
  Qred (energy (dict_class ex 1) (fun u => (u =? 3)%nat)) = 1 # 40 /\
  Qred (mse_choice ex 1 (fun i => (i =? 0)%nat) false - mse_choice ex 1 (fun _ => false) false) = 1 # 40 /\
  ~ energy (dict_class ex 1) (fun u => (u =? 6)%nat) == energy (dict_class ex 1) (fun u => (u =? 3)%nat).
Proof.
  split; [split; [simpl; lia|split; intros H; vm_compute in H; discriminate]|].
  vm_compute. repeat split; congruence.
Qed.
