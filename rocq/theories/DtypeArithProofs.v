From Verif Require Import Base BaseProofs DtypeModel DtypeArithModel.
Open Scope Z_scope.
Open Scope list_scope.

Definition in_rng (sg : bool) (b x : Z) : Prop := np_min sg b <= x <= np_max sg b.
Definition wf (d : dt) : Prop := (dk d <= 3)%nat /\ Forall (in_rng (dsg d) (dbits d)) (dvals d).

Lemma np_wrap_id sg b x : 0 < b -> in_rng sg b x -> np_wrap sg b x = x.
Proof.
  unfold in_rng, np_min, np_max, np_wrap. destruct sg; intros Hb H.
  - apply wrap_s_id; lia.
  - apply wrap_u_id; lia.
Qed.
Lemma np_bits_pos k : 0 < np_bits k.
Proof. unfold np_bits. assert (0 < 2 ^ Z.of_nat k) by (apply Z.pow_pos_nonneg; lia). lia. Qed.
Lemma np_bits_vals k : (k <= 3)%nat -> np_bits k = 8 \/ np_bits k = 16 \/ np_bits k = 32 \/ np_bits k = 64.
Proof. intros H. assert (K : (k = 0 \/ k = 1 \/ k = 2 \/ k = 3)%nat) by lia.
  destruct K as [-> | [-> | [-> | ->]]]; cbv; auto. Qed.
Lemma np_bits_mono k l : (k <= l)%nat -> np_bits k <= np_bits l.
Proof.
  intros H. unfold np_bits.
  assert (2 ^ Z.of_nat k <= 2 ^ Z.of_nat l) by (apply Z.pow_le_mono_r; lia). lia.
Qed.
Lemma np_bits_inj_lt k l : np_bits k < np_bits l -> (k < l)%nat.
Proof. intros H. destruct (le_lt_dec l k) as [A|A]; [|exact A]. apply np_bits_mono in A. lia. Qed.
Lemma in_rng_mono sg b c x : 0 < b -> b <= c -> in_rng sg b x -> in_rng sg c x.
Proof.
  unfold in_rng, np_min, np_max. intros Hb H. destruct sg.
  - assert (2 ^ (b-1) <= 2 ^ (c-1)) by (apply Z.pow_le_mono_r; lia). lia.
  - assert (2 ^ b <= 2 ^ c) by (apply Z.pow_le_mono_r; lia). lia.
Qed.

Lemma larger_k a b : dk (larger a b) = Nat.max (dk a) (dk b) .
Proof.
  unfold larger, dbits. destruct (np_bits (dk b) <? np_bits (dk a)) eqn:E.
  - apply Z.ltb_lt, np_bits_inj_lt in E. lia.
  - apply Z.ltb_ge in E. destruct (le_lt_dec (dk a) (dk b)) as [H|H]; [lia|].
    pose proof (np_bits_mono (S (dk b)) (dk a) H).
    assert (np_bits (dk b) < np_bits (S (dk b))).
    { unfold np_bits. rewrite Nat2Z.inj_succ, Z.pow_succ_r by lia.
      assert (0 < 2 ^ Z.of_nat (dk b)) by (apply Z.pow_pos_nonneg; lia). lia. }
    lia.
Qed.
Lemma larger_sg a b : dsg a = dsg b -> dsg (larger a b) = dsg a.
Proof. unfold larger. destruct (_ <? _); congruence. Qed.

Lemma has_overflow_false vs d : has_overflow vs d = false <-> Forall (in_rng (dsg d) (dbits d)) vs.
Proof.
  unfold has_overflow. rewrite orb_false_iff.
  induction vs as [|v vs IH]; simpl.
  - split; [constructor|auto].
  - rewrite !orb_false_iff. split.
    + intros [[A B] [C D]]. constructor.
      * unfold in_rng, dmin, dmax in *. lia.
      * apply IH. auto.
    + intros H. inversion_clear H as [|? ? H1 H2]. apply IH in H2. unfold in_rng, dmin, dmax in *.
      repeat split; try apply H2; lia.
Qed.

(** The operation, when every intermediate value fits in the widened dtype. *)
Lemma dt_op_exact op a b :
  dsg a = dsg b -> wf a -> wf b ->
  (forall x y, In (x, y) (combine (dvals a) (dvals b)) ->
     in_rng (dsg a) (np_bits (double_k (Nat.max (dk a) (dk b)))) (op x y)) ->
  dvals (dt_op op a b) = zip_with op (dvals a) (dvals b) /\
  Forall (in_rng (dsg (dt_op op a b)) (dbits (dt_op op a b))) (dvals (dt_op op a b)) /\
  dsg (dt_op op a b) = dsg a.
Proof.
  intros Hs [Ka Va] [Kb Vb] Hop.
  set (nb := np_bits (double_k (Nat.max (dk a) (dk b)))) in *.
  assert (Hnb : 0 < nb) by apply np_bits_pos.
  assert (La : map (np_wrap (dsg a) nb) (dvals a) = dvals a).
  { rewrite <- (map_id (dvals a)) at 2. apply map_ext_in. intros x Hx.
    apply np_wrap_id; [exact Hnb|]. rewrite Forall_forall in Va.
    eapply in_rng_mono; [apply (np_bits_pos (dk a))| |exact (Va _ Hx)].
    apply np_bits_mono. unfold double_k. lia. }
  assert (Lb : map (np_wrap (dsg a) nb) (dvals b) = dvals b).
  { rewrite <- (map_id (dvals b)) at 2. apply map_ext_in. intros x Hx.
    apply np_wrap_id; [exact Hnb|]. rewrite Forall_forall in Vb. rewrite Hs.
    eapply in_rng_mono; [apply (np_bits_pos (dk b))| |exact (Vb _ Hx)].
    apply np_bits_mono. unfold double_k. lia. }
  assert (R : map (clipZ (np_min (dsg a) nb) (np_max (dsg a) nb))
       (zip_with (fun x y => np_wrap (dsg a) nb (op x y)) (dvals a) (dvals b)) =
       zip_with op (dvals a) (dvals b)).
  { unfold zip_with. rewrite map_map. apply map_ext_in. intros [x y] Hxy. simpl.
    specialize (Hop _ _ Hxy). rewrite np_wrap_id by assumption. apply clipZ_id. exact Hop. }
  assert (Fn : Forall (in_rng (dsg a) nb) (zip_with op (dvals a) (dvals b))).
  { unfold zip_with. apply Forall_forall. intros z Hz. apply in_map_iff in Hz as ((x & y) & <- & Hxy).
    now apply Hop. }
  unfold dt_op. rewrite larger_k, (larger_sg _ _ Hs). fold nb. rewrite La, Lb, R.
  destruct (has_overflow _ a) eqn:O; cbn [dvals dsg dk dbits].
  - repeat split; auto.
  - repeat split; auto. apply has_overflow_false in O.
    eapply Forall_impl; [|exact O]. intros z Hz.
    apply (in_rng_mono _ (dbits a)); [apply np_bits_pos| |exact Hz]. unfold dbits; cbn [dk]; apply np_bits_mono; lia.
Qed.

Lemma pow_split (b c : Z) : 0 < b -> 2 * b <= c -> 2 ^ (b-1) * 2 ^ (b-1) * 2 <= 2 ^ (c-1).
Proof.
  intros. rewrite <- Z.pow_add_r by lia.
  replace (2 ^ (b - 1 + (b - 1)) * 2) with (2 ^ (b - 1 + (b - 1) + 1)) by (rewrite Z.pow_add_r by lia; lia).
  apply Z.pow_le_mono_r; lia.
Qed.

Lemma widen_bits a b : (dk a <= 2)%nat -> (dk b <= 2)%nat ->
  let m := np_bits (Nat.max (dk a) (dk b)) in
  np_bits (double_k (Nat.max (dk a) (dk b))) = 2 * m /\ 0 < m /\ dbits a <= m /\ dbits b <= m.
Proof.
  intros A B m. split; [|split; [apply np_bits_pos|split; apply np_bits_mono; lia]].
  unfold m, np_bits, double_k. rewrite Nat.min_r by lia.
  rewrite Nat2Z.inj_succ, Z.pow_succ_r by lia. lia.
Qed.

Lemma combine_in (a b : dt) x y : wf a -> wf b -> In (x, y) (combine (dvals a) (dvals b)) ->
  in_rng (dsg a) (dbits a) x /\ in_rng (dsg b) (dbits b) y.
Proof.
  intros [_ A] [_ B] H. rewrite Forall_forall in A, B.
  split; [apply A; eapply in_combine_l; eauto | apply B; eapply in_combine_r; eauto].
Qed.

Lemma op_fits_signed m x y : 0 < m -> in_rng true m x -> in_rng true m y ->
  in_rng true (2*m) (x + y) /\ in_rng true (2*m) (x - y) /\ in_rng true (2*m) (x * y).
Proof.
  unfold in_rng, np_min, np_max. intros Hm Hx Hy.
  pose proof (pow_split m (2*m) Hm ltac:(lia)) as P.
  assert (1 <= 2 ^ (m-1)) by (change 1 with (2^0); apply Z.pow_le_mono_r; lia).
  set (p := 2 ^ (m-1)) in *. set (q := 2 ^ (2*m-1)) in *. clearbody p q.
  repeat split; nia.
Qed.
Lemma op_fits_unsigned m x y : 0 < m -> in_rng false m x -> in_rng false m y ->
  in_rng false (2*m) (x + y) /\ (y <= x -> in_rng false (2*m) (x - y)) /\ in_rng false (2*m) (x * y).
Proof.
  unfold in_rng, np_min, np_max. intros Hm Hx Hy.
  assert (P : 2 ^ (2*m) = 2^m * 2^m) by (rewrite <- Z.pow_add_r by lia; f_equal; lia).
  assert (2 <= 2 ^ m) by (change 2 with (2^1) at 1; apply Z.pow_le_mono_r; lia).
  rewrite P. set (p := 2 ^ m) in *. clearbody p.
  repeat split; nia.
Qed.

Lemma dt_exact_gen op a b :
  (op = Z.add \/ op = Z.mul \/ (op = Z.sub /\
     (dsg a = true \/ forall x y, In (x, y) (combine (dvals a) (dvals b)) -> y <= x))) ->
  dsg a = dsg b -> wf a -> wf b -> (dk a <= 2)%nat -> (dk b <= 2)%nat ->
  dvals (dt_op op a b) = zip_with op (dvals a) (dvals b) /\
  Forall (in_rng (dsg (dt_op op a b)) (dbits (dt_op op a b))) (dvals (dt_op op a b)) /\
  dsg (dt_op op a b) = dsg a.
Proof.
  intros Hop Hs Wa Wb Ka Kb. apply dt_op_exact; auto. intros x y Hxy.
  destruct (widen_bits a b Ka Kb) as (-> & M & A & B). set (m := np_bits (Nat.max (dk a) (dk b))) in *.
  destruct (combine_in _ _ _ _ Wa Wb Hxy) as [Hx Hy]. rewrite <- Hs in Hy.
  apply (in_rng_mono _ _ m) in Hx; [|apply np_bits_pos|exact A].
  apply (in_rng_mono _ _ m) in Hy; [|apply np_bits_pos|exact B].
  destruct (dsg a) eqn:E.
  - destruct (op_fits_signed m x y M Hx Hy) as (P1 & P2 & P3).
    destruct Hop as [-> | [-> | [-> _]]]; assumption.
  - destruct (op_fits_unsigned m x y M Hx Hy) as (P1 & P2 & P3).
    destruct Hop as [-> | [-> | [-> [D|D]]]]; try assumption; [discriminate|]. apply P2. now apply D.
Qed.

(** Helpers *)
Lemma wrap2 b x : 0 < b -> - 2 ^ (b-1) <= x <= 2 ^ (b-1) - 1 -> wrap_s b (wrap_s b x) = x.
Proof. intros Hb H. rewrite (wrap_s_id b x) by assumption. now apply wrap_s_id. Qed.

Lemma widen_mul n x y : 0 < n -> - 2 ^ (n-1) <= x <= 2^(n-1) - 1 -> - 2 ^ (n-1) <= y <= 2^(n-1) - 1 ->
  wrap_s (2*n) (wrap_s (2*n) (wrap_s (2*n) x * wrap_s (2*n) y)) = x * y.
Proof.
  intros Hn Hx Hy.
  destruct (op_fits_signed n x y Hn Hx Hy) as (_ & _ & P).
  assert (2^(n-1) <= 2^(2*n-1)) by (apply Z.pow_le_mono_r; lia).
  rewrite (wrap_s_id (2*n) x), (wrap_s_id (2*n) y) by lia. apply wrap2; [lia|exact P].
Qed.
Lemma widen_add n x y : 0 < n -> - 2 ^ (n-1) <= x <= 2^(n-1) - 1 -> - 2 ^ (n-1) <= y <= 2^(n-1) - 1 ->
  wrap_s (2*n) (wrap_s (2*n) (wrap_s (2*n) x + wrap_s (2*n) y)) = x + y.
Proof.
  intros Hn Hx Hy.
  destruct (op_fits_signed n x y Hn Hx Hy) as (P & _ & _).
  assert (2^(n-1) <= 2^(2*n-1)) by (apply Z.pow_le_mono_r; lia).
  rewrite (wrap_s_id (2*n) x), (wrap_s_id (2*n) y) by lia. apply wrap2; [lia|exact P].
Qed.
