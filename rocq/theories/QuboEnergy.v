From Verif Require Import Base BaseProofs QuboModel QuboProofs SpecQubo.
Open Scope Q_scope.
Open Scope list_scope.

Lemma energy_app A B x : energy (A ++ B) x == energy A x + energy B x.
Proof. unfold energy. rewrite map_app. apply sumQ_app. Qed.
Lemma energy_flat_map {A} (f : A -> dict) l x :
  energy (flat_map f l) x == sumQ (map (fun a => energy (f a) x) l).
Proof.
  induction l as [|a l IH]; simpl; [reflexivity|]. rewrite energy_app, IH. reflexivity.
Qed.
Lemma bit_sq b : bit b * bit b == bit b. Proof. destruct b; reflexivity. Qed.

Lemma sum_n_plus k f g : sum_n k (fun s => f s + g s) == sum_n k f + sum_n k g.
Proof. apply sumQ_map_plus. Qed.
Lemma sum_n_scal k c f : sum_n k (fun s => c * f s) == c * sum_n k f.
Proof. apply sumQ_map_mult. Qed.
Lemma sum_n_ext k f g : (forall s, (s < k)%nat -> f s == g s) -> sum_n k f == sum_n k g.
Proof. intros H. apply sumQ_map_ext. intros s Hs. apply in_seq in Hs. apply H. lia. Qed.
Lemma sum_n_swap k j f : sum_n k (fun a => sum_n j (f a)) == sum_n j (fun b => sum_n k (fun a => f a b)).
Proof. unfold sum_n. apply sumQ_swap. Qed.

Section E.
Context (I : inst) (W : wf_inst I).
Let N := iN I. Let n := iIn I. Let m := iOut I.
Let si := i_si I. Let sk := i_sk I. Let sb := i_sb I.
Let c := (sk * si) ^ 2 * (1 / inject_Z (Z.of_nat N)).
Let beta := sb / (sk * si).
Let xr := input_round I.
Let d := dterm I.

Lemma N_nz : ~ inject_Z (Z.of_nat N) == 0.
Proof. destruct W as (H & _). fold N in H. unfold Qeq, inject_Z; simpl. lia. Qed.
Lemma sksi_nz : ~ sk * si == 0.
Proof. destruct W as (_ & A & B). fold si in A. fold sk in B. intros H. apply Qmult_integral in H as [H|H]; auto. Qed.

(** Square of a sum: diagonal plus off-diagonal part. *)
Lemma sum_off_diag k (i : nat) (a : Q) (y : nat -> Q) : (i < k)%nat ->
  sum_n k (fun j => (if (i =? j)%nat then 0 else a * y j)) == a * sum_n k y - a * y i.
Proof.
  intros Hi. unfold sum_n. induction k as [|k IH]; [lia|].
  rewrite seq_S, !map_app, !sumQ_app. simpl. destruct (Nat.eqb_spec i k) as [->|Hne].
  - rewrite (sumQ_map_ext _ (fun j => a * y j)).
    + rewrite sumQ_map_mult. ring.
    + intros j Hj. apply in_seq in Hj. destruct (Nat.eqb_spec k j); [lia|reflexivity].
  - rewrite IH by lia. ring.
Qed.

Context (l : nat) (Hl : (l < m)%nat) (x : nat -> bool).
Let v i := bit (x (kvar I l i)).
Let b := bit (x (bvar I l)).

Lemma energy_e1 : energy (e1 I l) x == sum_n n (fun i => suma1 I l i * v i).
Proof.
  unfold e1. rewrite energy_flat_map. apply sum_n_ext. intros i _.
  unfold energy; simpl. fold (kvar I l i). fold (v i).
  assert (E : v i * v i == v i) by apply bit_sq. rewrite E. ring.
Qed.
Lemma energy_e2 B : energy (e2 I B l) x == sum_n n (fun i => sum_n n (fun j => B (j + i * n)%nat * (v i * v j))).
Proof.
  unfold e2. rewrite energy_flat_map. apply sum_n_ext. intros i _.
  rewrite energy_flat_map. apply sum_n_ext. intros j _. fold n.
  destruct (Qeq_bool (B (j + i * n)%nat) 0) eqn:E.
  - apply Qeq_bool_iff in E. rewrite E. unfold energy; simpl. ring.
  - unfold energy; simpl. unfold v, kvar, n. ring.
Qed.
Lemma energy_e3 : energy (e3 I l) x == bt3 I l * b.
Proof. unfold e3, energy; simpl. fold (bvar I l). fold b.
  assert (E : b * b == b) by apply bit_sq. rewrite E. ring. Qed.
Lemma energy_e4 B : energy (e4 I B l) x == sum_n n (fun i => 2 * (B i * (v i * b))).
Proof.
  unfold e4. rewrite energy_flat_map. apply sum_n_ext. intros i _.
  destruct (Qeq_bool (B i) 0) eqn:E.
  - apply Qeq_bool_iff in E. rewrite E. unfold energy; simpl. ring.
  - unfold energy; simpl. fold (kvar I l i) (bvar I l). fold (v i) b. ring.
Qed.

(** Energy as a sum over samples *)
Definition per_sample (s : nat) : Q :=
  sum_n n (fun i => xr s i * (xr s i - 2 * d s l) * v i)
  + sum_n n (fun i => sum_n n (fun j => outer0 I s i j * (v i * v j)))
  + beta * (beta - 2 * d s l) * b
  + sum_n n (fun i => 2 * (beta * xr s i * (v i * b))).

Lemma energy_per_sample : energy (canon I l) x == c * sum_n N per_sample.
Proof.
  unfold canon. rewrite !energy_app, energy_e1, energy_e2, energy_e3, energy_e4.
  unfold per_sample. rewrite !sum_n_plus.
  assert (A1 : sum_n n (fun i => suma1 I l i * v i) == c * sum_n N (fun s => sum_n n (fun i => xr s i * (xr s i - 2 * d s l) * v i))).
  { rewrite sum_n_swap, <- sum_n_scal. apply sum_n_ext. intros i _. unfold suma1.
    rewrite (sum_n_ext _ _ (fun s => c * (xr s i * (xr s i - 2 * d s l)))) by (intros; unfold c, xr, d, N, sk, si; ring).
    rewrite sum_n_scal. rewrite <- (Qmult_assoc c). apply Qmult_comp; [reflexivity|].
    unfold sum_n. rewrite <- sumQ_map_mult_r. reflexivity. }
  assert (A2 : sum_n n (fun i => sum_n n (fun j => bt2_calc I (j + i * n)%nat * (v i * v j))) ==
    c * sum_n N (fun s => sum_n n (fun i => sum_n n (fun j => outer0 I s i j * (v i * v j))))).
  { rewrite (sum_n_swap N n), <- sum_n_scal. apply sum_n_ext. intros i Hi.
    rewrite (sum_n_swap N n), <- sum_n_scal. apply sum_n_ext. intros j Hj.
    unfold n. rewrite bt2_calc_at by exact Hj. fold N si sk. fold c.
    rewrite <- (Qmult_assoc c). apply Qmult_comp; [reflexivity|].
    unfold sum_n. rewrite <- sumQ_map_mult_r. reflexivity. }
  assert (A3 : bt3 I l * b == c * sum_n N (fun s => beta * (beta - 2 * d s l) * b)).
  { unfold bt3. fold N.
    rewrite (sum_n_ext N _ (fun s => c * (beta * (beta - 2 * d s l)))).
    - rewrite sum_n_scal. rewrite <- (Qmult_assoc c). apply Qmult_comp; [reflexivity|].
      unfold sum_n. rewrite <- sumQ_map_mult_r. reflexivity.
    - intros s _. unfold c, beta, d. fold sb si sk N. rewrite (Qmult_comm_L si sk). ring. }
  assert (A4 : sum_n n (fun i => 2 * (bt4_calc I i * (v i * b))) == c * sum_n N (fun s => sum_n n (fun i => 2 * (beta * xr s i * (v i * b))))).
  { rewrite sum_n_swap, <- sum_n_scal. apply sum_n_ext. intros i _. unfold bt4_calc. fold N.
    rewrite (sum_n_ext N _ (fun s => (c * beta) * xr s i)) by (intros; unfold c, beta, xr, N, sk, si, sb; ring).
    rewrite sum_n_scal.
    transitivity (c * sum_n N (fun s => (2 * beta * (v i * b)) * xr s i)).
    - rewrite sum_n_scal. ring.
    - apply Qmult_comp; [reflexivity|]. apply sum_n_ext. intros; ring. }
  rewrite A1, A2, A3, A4. ring.
Qed.

(** per_sample in closed form *)
Let S s := sum_n n (fun i => xr s i * v i).
Lemma per_sample_closed s : per_sample s == (S s + beta * b) ^ 2 - 2 * d s l * (S s + beta * b).
Proof.
  unfold per_sample.
  assert (Q1 : sum_n n (fun i => sum_n n (fun j => outer0 I s i j * (v i * v j))) ==
     S s * S s - sum_n n (fun i => xr s i * xr s i * v i)).
  { rewrite (sum_n_ext n _ (fun i => S s * (xr s i * v i) + (-1) * (xr s i * xr s i * v i))).
    - rewrite sum_n_plus, !sum_n_scal. unfold S. ring.
    - intros i Hi.
      rewrite (sum_n_ext n _ (fun j => if (i =? j)%nat then 0 else (xr s i * v i) * (xr s j * v j))).
      + rewrite (sum_off_diag n i (xr s i * v i) (fun j => xr s j * v j) Hi). fold (S s).
        assert (E : v i * v i == v i) by apply bit_sq.
        setoid_replace (xr s i * v i * (xr s i * v i)) with (xr s i * xr s i * (v i * v i)) by ring.
        rewrite E. ring.
      + intros j _. unfold outer0. destruct (i =? j)%nat; [ring|]. unfold xr. ring. }
  rewrite Q1.
  assert (Q2 : sum_n n (fun i => xr s i * (xr s i - 2 * d s l) * v i) ==
     sum_n n (fun i => xr s i * xr s i * v i) - 2 * d s l * S s).
  { rewrite (sum_n_ext n _ (fun i => xr s i * xr s i * v i + (- (2) * d s l) * (xr s i * v i))) by (intros; ring).
    rewrite sum_n_plus, sum_n_scal. fold (S s). ring. }
  assert (Q3 : sum_n n (fun i => 2 * (beta * xr s i * (v i * b))) == 2 * beta * b * S s).
  { rewrite (sum_n_ext n _ (fun i => (2 * beta * b) * (xr s i * v i))) by (intros; ring).
    rewrite sum_n_scal. reflexivity. }
  rewrite Q2, Q3.
  assert (E : b * b == b) by apply bit_sq.
  setoid_replace (beta * (beta - 2 * d s l) * b) with (beta * beta * b - 2 * d s l * beta * b) by ring.
  rewrite <- E at 1. ring.
Qed.

(** residual of the specification *)
Lemma residual s (u : nat -> bool) (bb : bool) :
  iO I s l - neuron_out I l s (weight I l u) (biasq I l bb) ==
  (sk * si) * (d s l - (sum_n n (fun i => xr s i * bit (u i)) + beta * bit bb)).
Proof.
  unfold neuron_out, d, dterm, weight, biasq. fold n si sk sb.
  assert (Zb : forall z, inject_Z (Zbit z) = bit z) by (intros []; reflexivity).
  rewrite inject_Z_plus, Zb.
  assert (E : sumQ (map (fun i => sk * inject_Z (Qfloor (iK I l i / sk) + Zbit (u i)) *
                   (si * inject_Z (Qround_even (iX I s i / si)))) (seq 0 n)) ==
     (sk * si) * (sum_n n (fun i => inject_Z (Qfloor (iK I l i / sk)) * input_round I s i)
                  + sum_n n (fun i => xr s i * bit (u i)))).
  { rewrite <- sum_n_plus, <- sum_n_scal. apply sum_n_ext. intros i _.
    rewrite inject_Z_plus, Zb. unfold xr, input_round. fold si. ring. }
  rewrite E. unfold beta. pose proof sksi_nz as NZ.
  destruct W as (_ & A & B). fold si in A. fold sk in B. field. split; assumption.
Qed.

Lemma energy_mse :
  energy (canon I l) x == mse_choice I l (fun i => x (kvar I l i)) (x (bvar I l))
                          - mse_choice I l (fun _ => false) false.
Proof.
  rewrite energy_per_sample. unfold mse_choice, mse. fold N.
  rewrite (sum_n_ext N _ _ (fun s _ => per_sample_closed s)).
  assert (R1 : sumQ (map (fun s => (iO I s l - neuron_out I l s (weight I l (fun i => x (kvar I l i))) (biasq I l (x (bvar I l)))) ^ 2) (seq 0 N))
     == (sk*si)^2 * sum_n N (fun s => (d s l - (S s + beta * b)) ^ 2)).
  { rewrite <- sum_n_scal. apply sum_n_ext. intros s _. rewrite residual.
    fold (S s). fold b. change (sum_n n (fun i => xr s i * bit (x (kvar I l i)))) with (S s). ring. }
  assert (R0 : sumQ (map (fun s => (iO I s l - neuron_out I l s (weight I l (fun _ => false)) (biasq I l false)) ^ 2) (seq 0 N))
     == (sk*si)^2 * sum_n N (fun s => (d s l) ^ 2)).
  { rewrite <- sum_n_scal. apply sum_n_ext. intros s _. rewrite residual.
    rewrite (sum_n_zero I n (fun i => xr s i * bit false)) by (intros; simpl; ring). simpl bit. ring. }
  rewrite R1, R0.
  assert (D : sum_n N (fun s => (S s + beta * b) ^ 2 - 2 * d s l * (S s + beta * b)) ==
    sum_n N (fun s => (d s l - (S s + beta * b)) ^ 2) + (-1) * sum_n N (fun s => (d s l) ^ 2)).
  { rewrite <- sum_n_scal, <- sum_n_plus. apply sum_n_ext. intros; ring. }
  rewrite D. unfold c. field. apply N_nz.
Qed.
End E.
