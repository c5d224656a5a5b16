(** C47, C48: batching and result synchronisation of the MQTT inference clients. *)
From Verif Require Import Base BaseProofs ConvModel FpgaModel.

(** ** C47 *)
Lemma concat_take_sizes {A} : forall sizes (x : list A), fold_right Nat.add 0%nat sizes = length x -> concat (take_sizes sizes x) = x.
Proof.
  induction sizes as [|k r IH]; intros x H; cbn in *; [symmetry in H; now apply length_zero_iff_nil in H|].
  rewrite IH; [apply firstn_skipn|]. rewrite skipn_length. lia.
Qed.
Lemma take_sizes_lengths {A} : forall sizes (x : list A), fold_right Nat.add 0%nat sizes = length x -> map (@length A) (take_sizes sizes x) = sizes.
Proof.
  induction sizes as [|k r IH]; intros x H; cbn in *; [reflexivity|]. rewrite firstn_length, Nat.min_l by lia. f_equal.
  apply IH. rewrite skipn_length. lia.
Qed.
Lemma sum_repeat k n : fold_right Nat.add 0%nat (repeat k n) = (n * k)%nat.
Proof. induction n; cbn; [reflexivity|]. lia. Qed.
Lemma sum_app a b : fold_right Nat.add 0%nat (a ++ b) = (fold_right Nat.add 0 a + fold_right Nat.add 0 b)%nat.
Proof. induction a; cbn; [reflexivity|]. lia. Qed.
Lemma split_sizes_sum len n : (0 < n)%nat -> fold_right Nat.add 0%nat (split_sizes len n) = len.
Proof.
  intros H. unfold split_sizes. rewrite sum_app, !sum_repeat. pose proof (Nat.div_mod len n ltac:(lia)). pose proof (Nat.mod_upper_bound len n ltac:(lia)).
  rewrite Nat.mul_sub_distr_r. set (q := (len / n)%nat) in *. set (r := (len mod n)%nat) in *.
  assert (r * q <= n * q)%nat by (apply Nat.mul_le_mono_r; lia). lia.
Qed.
Lemma split_sizes_length len n : (0 < n)%nat -> length (split_sizes len n) = n.
Proof. intros H. unfold split_sizes. rewrite app_length, !repeat_length. pose proof (Nat.mod_upper_bound len n ltac:(lia)). lia. Qed.
Lemma split_sizes_in len n k : In k (split_sizes len n) -> k = (len / n)%nat \/ (k = S (len / n) /\ len mod n <> 0)%nat.
Proof.
  unfold split_sizes. intros H. apply in_app_or in H as [H|H].
  - right. split; [now apply repeat_spec in H|]. destruct (len mod n)%nat; [destruct H|lia].
  - left. now apply repeat_spec in H.
Qed.

(** Number of chunks the client makes: [len(x) // max_batch_size]. *)
Lemma fpga_chunks_ok {A} (x : list A) m : 0 < m <= Z.of_nat (length x) ->
  exists n, (0 < n)%nat /\ Z.of_nat n = Z.of_nat (length x) / m /\ fpga_chunks x m = Ok (take_sizes (split_sizes (length x) n) x).
Proof.
  intros H. exists (Z.to_nat (Z.of_nat (length x) / m)). unfold fpga_chunks, array_split.
  assert (P : 1 <= Z.of_nat (length x) / m) by (apply Z.div_le_lower_bound; lia).
  destruct (Z.eqb_spec m 0); [lia|]. destruct (Z.leb_spec (Z.of_nat (length x) / m) 0); [lia|].
  split; [lia|]. split; [lia|reflexivity].
Qed.
Lemma sizes_range (len n m : nat) : (0 < n)%nat -> (0 < m)%nat -> n = (len / m)%nat ->
  (m <= len / n)%nat /\ (len / n <= 2 * m - 1)%nat /\ (len mod n <> 0 -> S (len / n) <= 2 * m - 1)%nat.
Proof.
  intros Hn Hm E. pose proof (Nat.div_mod len m ltac:(lia)) as D. pose proof (Nat.mod_upper_bound len m ltac:(lia)) as U. rewrite <- E in D.
  pose proof (Nat.div_mod len n ltac:(lia)) as D2. pose proof (Nat.mod_upper_bound len n ltac:(lia)) as U2.
  set (q := (len / n)%nat) in *. set (r := (len mod n)%nat) in *. set (e := (len mod m)%nat) in *. clearbody q r e.
  repeat split; intros; nia.
Qed.

(** The chunks are the batch in order; there are [len // max] of them; sizes differ by at most one; each holds at least max and
    fewer than twice max rows. *)
Theorem C47_chunks : forall {A} (x : list A) m cs, 0 < m -> fpga_chunks x m = Ok cs ->
  concat cs = x /\ Z.of_nat (length cs) = Z.of_nat (length x) / m /\
  (forall a b, In a cs -> In b cs -> (length a <= S (length b))%nat) /\
  (forall c, In c cs -> m <= Z.of_nat (length c) <= 2 * m - 1).
Proof.
  intros A x m cs Hm E.
  assert (L : m <= Z.of_nat (length x)).
  { destruct (Z_lt_le_dec (Z.of_nat (length x)) m) as [H|H]; [|exact H]. exfalso. unfold fpga_chunks, array_split in E.
    rewrite Z.div_small in E by lia. destruct (Z.eqb_spec m 0); [lia|]. discriminate. }
  destruct (fpga_chunks_ok x m) as (n & Hn & En & E'); [lia|]. rewrite E' in E. injection E as <-.
  assert (S1 : fold_right Nat.add 0%nat (split_sizes (length x) n) = length x) by now apply split_sizes_sum.
  assert (IN : forall c, In c (take_sizes (split_sizes (length x) n) x) -> In (length c) (split_sizes (length x) n)).
  { intros c Hc. rewrite <- (take_sizes_lengths _ _ S1). now apply in_map. }
  assert (Em : n = (length x / Z.to_nat m)%nat).
  { apply Nat2Z.inj. rewrite Nat2Z.inj_div, Z2Nat.id by lia. exact En. }
  destruct (sizes_range (length x) n (Z.to_nat m) Hn ltac:(lia) Em) as (B1 & B2 & B3).
  split; [now apply concat_take_sizes|]. split; [|split].
  - rewrite <- En. f_equal. rewrite <- (map_length (@length A)), take_sizes_lengths by assumption. now apply split_sizes_length.
  - intros a b Ha Hb. destruct (split_sizes_in _ _ _ (IN a Ha)) as [-> | [-> _]], (split_sizes_in _ _ _ (IN b Hb)) as [-> | [-> _]]; lia.
  - intros c Hc. destruct (split_sizes_in _ _ _ (IN c Hc)) as [-> | [-> H]]; [lia|]. specialize (B3 H). lia.
Qed.
(** No chunk exceeds max_batch_size exactly when max_batch_size divides the length of the batch. *)
Theorem C47_within_limit_iff : forall {A} (x : list A) m cs, 0 < m -> fpga_chunks x m = Ok cs ->
  ((forall c, In c cs -> Z.of_nat (length c) <= m) <-> Z.of_nat (length x) mod m = 0).
Proof.
  intros A x m cs Hm E. destruct (C47_chunks x m cs Hm E) as (C & N & _ & R).
  assert (T : forall l : list (list A), (forall c, In c l -> m <= Z.of_nat (length c)) ->
     Z.of_nat (length (concat l)) >= m * Z.of_nat (length l) /\
     ((forall c, In c l -> Z.of_nat (length c) <= m) <-> Z.of_nat (length (concat l)) = m * Z.of_nat (length l))).
  { induction l as [|a l IH]; intros H; cbn [concat length]; [split; [lia|split; [lia|intros _ c []]]|].
    rewrite app_length, Nat2Z.inj_add, Nat2Z.inj_succ. destruct IH as [IH1 IH2]; [intros; apply H; now right|].
    assert (Ha := H a (or_introl eq_refl)). split; [lia|]. split.
    - intros K. assert (K' := proj1 IH2 (fun c Hc => K c (or_intror Hc))). specialize (K a (or_introl eq_refl)). lia.
    - intros K c [<- | Hc]; [lia|]. apply (proj2 IH2); [lia|exact Hc]. }
  destruct (T cs) as [_ T2]; [intros c Hc; now apply R|]. rewrite T2, C, N. clear - Hm.
  pose proof (Z.div_mod (Z.of_nat (length x)) m ltac:(lia)). split; lia.
Qed.
(** A batch with fewer rows than max_batch_size (in particular an empty one) is not sent: the call returns None. *)
Theorem C47_small_batch_dropped : forall x m flag buf cb, 0 < m -> Z.of_nat (length x) < m ->
  returned (call_start x m flag buf cb) = Some None /\ s_sent (call_start x m flag buf cb) = [] /\
  forall ls s, run ls (call_start x m flag buf cb) = Some s -> s_sent s = [] /\ returned s = Some None.
Proof.
  intros x m flag buf cb Hm H. unfold call_start, fpga_chunks, array_split. rewrite Z.div_small by lia.
  destruct (Z.eqb_spec m 0); [lia|]. cbn [Z.leb Z.compare]. split; [reflexivity|]. split; [reflexivity|].
  intros ls. set (s0 := mkst _ _ _ _ _ _ _ _).
  assert (I : s_sent s0 = [] /\ s_pc s0 = PDone (Err EValueError)) by now split. clearbody s0. revert s0 I.
  induction ls as [|l ls IH]; intros s0 [I1 I2] s E; cbn [run] in E.
  - injection E as <-. unfold returned. now rewrite I2.
  - destruct (step l s0) as [s1|] eqn:St; [|discriminate]. apply (IH s1); [|exact E].
    unfold step in St. destruct l; rewrite ?I2 in St; try discriminate.
    + destruct (s_cb s0); [discriminate|]. destruct (as_numpy g); injection St as <-; now split.
    + destruct (s_cb s0); [injection St as <-; now split|discriminate].
Qed.
(** Sent exactly when it has at least max_batch_size rows (positive max_batch_size). *)
Theorem C47_sent_iff : forall {A} (x : list A) m, 0 < m -> ((exists cs, fpga_chunks x m = Ok cs) <-> m <= Z.of_nat (length x)).
Proof.
  intros A x m Hm. split; [|intros H; destruct (fpga_chunks_ok x m) as (n & _ & _ & E); [lia|]; eauto].
  intros [cs E]. destruct (Z_lt_le_dec (Z.of_nat (length x)) m) as [H|H]; [|exact H]. exfalso. unfold fpga_chunks, array_split in E.
  rewrite Z.div_small in E by lia. destruct (Z.eqb_spec m 0); [lia|]. discriminate.
Qed.
Theorem C47_bad_limit : forall {A} (x : list A) m, m <= 0 -> exists e, fpga_chunks x m = Err e.
Proof.
  intros A x m H. unfold fpga_chunks, array_split. destruct (Z.eqb_spec m 0); [eauto|].
  assert (Z.of_nat (length x) / m <= 0).
  { destruct (length x) as [|k]; [rewrite Z.div_0_l; lia|]. apply Z.lt_le_incl. rewrite <- Z.div_opp_opp by lia.
    apply Z.div_lt_upper_bound; lia. }
  destruct (Z.leb_spec (Z.of_nat (length x) / m) 0); [eauto|lia].
Qed.
(** The largest excess really occurs, for every limit. *)
Theorem C47_worst_excess : forall {A} (x : list A) m, 0 < m -> Z.of_nat (length x) = 2 * m - 1 -> fpga_chunks x m = Ok [x].
Proof.
  intros A x m Hm L. destruct (fpga_chunks_ok x m) as (n & Hn & En & E); [lia|].
  assert (n = 1%nat). { assert (Z.of_nat (length x) / m = 1); [|lia]. symmetry. apply (Z.div_unique _ _ 1 (m - 1)); lia. }
  subst n. rewrite E. unfold split_sizes. rewrite Nat.mod_1_r, Nat.div_1_r. cbn [repeat app Nat.sub take_sizes]. now rewrite firstn_all.
Qed.
(** Encoding and decoding a batch of equally wide rows is the identity. *)
Lemma concat_rows w : forall b : list (list Q), Forall (fun r => length r = w) b -> length (concat b) = (length b * w)%nat.
Proof. induction 1 as [|r b H _ IH]; cbn; [reflexivity|]. rewrite app_length. lia. Qed.
Lemma nth_concat_rows w : forall (b : list (list Q)) i j, Forall (fun r => length r = w) b -> (j < w)%nat -> (i < length b)%nat ->
  nth (i * w + j) (concat b) 0%Q = nth j (nth i b []) 0%Q.
Proof.
  induction b as [|r b IH]; intros i j F Hj Hi; cbn in Hi; [lia|]. inversion F; subst. destruct i as [|i]; cbn [concat nth Nat.mul Nat.add].
  - now rewrite app_nth1 by lia.
  - rewrite app_nth2 by lia. rewrite <- (IH i j) by (assumption || lia). f_equal. lia.
Qed.
Lemma from_numpy_ok id b w : b <> [] -> Forall (fun r => length r = w) b -> from_numpy id b = Ok (mkmsg id [length b; w] (concat b)).
Proof.
  intros N F. unfold from_numpy. destruct (Nat.eqb_spec (length b) 0) as [H|H]; [apply length_zero_iff_nil in H; contradiction|].
  rewrite (concat_rows w b F). rewrite (Nat.mul_comm (length b)), Nat.div_mul by exact H. reflexivity.
Qed.
Theorem C47_round_trip : forall id b w, b <> [] -> Forall (fun r => length r = w) b ->
  exists g a, from_numpy id b = Ok g /\ g_id g = id /\ as_numpy g = Ok a /\ a_shape a = [length b; w] /\ length (a_data a) = (length b * w)%nat /\
    forall i j, (i < length b)%nat -> (j < w)%nat -> nth (i * w + j) (a_data a) 0%Q = nth j (nth i b []) 0%Q.
Proof.
  intros id b w N F. eexists. eexists. rewrite (from_numpy_ok id b w N F). split; [reflexivity|]. split; [reflexivity|].
  unfold as_numpy. cbn [g_tensor g_shape prod]. rewrite (concat_rows w b F), Nat.mul_1_r, Nat.eqb_refl. split; [reflexivity|].
  split; [reflexivity|]. split; [now apply concat_rows|]. intros i j Hi Hj. now apply nth_concat_rows.
Qed.

(** What has been sent in any reachable state: the encodings of an initial segment of the chunks, numbered from 0, in order. *)
Fixpoint encodings (k : nat) (cs : list (list (list Q))) : list (res msg) :=
  match cs with [] => [] | c :: r => from_numpy k c :: encodings (S k) r end.
Lemma encodings_app k a b : encodings k (a ++ b) = encodings k a ++ encodings (k + length a) b.
Proof. revert k. induction a as [|c a IH]; intros k; cbn; [now rewrite Nat.add_0_r|]. rewrite IH. do 3 f_equal. lia. Qed.

Definition sent_inv (cs : list (list (list Q))) (s : st) : Prop :=
  exists done, cs = done ++ s_todo s /\ s_i s = length done /\ length (s_acc s) = length done /\
    match s_pc s with
    | PWait | PCheck | PAppend => exists c r, s_todo s = c :: r /\ map Ok (s_sent s) = encodings 0 (done ++ [c])
    | PDone (Ok _) => s_todo s = [] /\ map Ok (s_sent s) = encodings 0 done
    | PDone (Err _) => True
    | _ => s_todo s <> [] /\ map Ok (s_sent s) = encodings 0 done
    end /\ (exists c r, map Ok (s_sent s) = encodings 0 (done ++ c) /\ cs = done ++ c ++ r).
Lemma sent_inv_start cs flag buf cb : cs <> [] -> sent_inv cs (start cs flag buf cb).
Proof.
  intros N. exists []. cbn. destruct cs; [contradiction|]. cbn. repeat split; [discriminate|]. exists [], (l :: cs). now split.
Qed.
Lemma sent_inv_step cs l s s' : step l s = Some s' -> sent_inv cs s -> sent_inv cs s'.
Proof.
  intros St (done & E & Ei & Ea & P & Q). destruct l; cbn [step] in St.
  - destruct (s_pc s) eqn:Pc.
    + injection St as <-. exists done. cbn. auto.
    + injection St as <-. exists done. cbn. auto.
    + destruct P as [N P]. destruct (s_todo s) as [|c r] eqn:T; [discriminate|]. destruct (from_numpy (s_i s) c) as [g|e] eqn:G; injection St as <-.
      * exists done. cbn. repeat split; auto.
        -- exists c, r. split; [reflexivity|]. rewrite map_app, P, encodings_app. cbn. now rewrite <- Ei, G.
        -- exists [c], r. split; [|exact E]. rewrite map_app, P, encodings_app. cbn. now rewrite <- Ei, G.
      * exists done. cbn. repeat split; auto.
    + destruct (s_flag s); [|discriminate]. injection St as <-. exists done. cbn. auto.
    + destruct (s_res s) eqn:R; injection St as <-; exists done; cbn; rewrite ?R; auto.
    + destruct (s_res s) as [a|] eqn:R; [|discriminate]. injection St as <-. destruct P as (c & r & T & P).
      exists (done ++ [c]). rewrite T in *. cbn. rewrite <- app_assoc. split; [exact E|]. rewrite !app_length; cbn. split; [lia|]. split; [lia|]. split.
      * destruct r; cbn.
        -- destruct (concatenate _); auto.
        -- split; [discriminate|exact P].
      * exists [], r. rewrite app_nil_r. split; [exact P|]. cbn. rewrite <- app_assoc. exact E.
    + discriminate.
  - destruct (s_pc s) eqn:Pc; try discriminate. injection St as <-. exists done. cbn. auto.
  - destruct (s_cb s); [discriminate|]. destruct (as_numpy g); injection St as <-; exists done; cbn; auto.
  - destruct (s_cb s); [|discriminate]. injection St as <-. exists done. cbn. auto.
Qed.
Lemma run_inv (P : st -> Prop) : (forall l s s', step l s = Some s' -> P s -> P s') -> forall ls s s', run ls s = Some s' -> P s -> P s'.
Proof.
  intros H. induction ls as [|l ls IH]; intros s s' E Ps; cbn [run] in E; [now injection E as <-|].
  destruct (step l s) as [s1|] eqn:St; [|discriminate]. eapply IH; [exact E|]. eapply H; eauto.
Qed.
Lemma array_split_nonempty {A} (x : list A) m cs : 0 < m -> fpga_chunks x m = Ok cs -> cs <> [].
Proof.
  intros Hm E ->. assert (L := proj1 (C47_sent_iff x m Hm) (ex_intro _ _ E)). destruct (C47_chunks x m [] Hm E) as (_ & N & _).
  assert (1 <= Z.of_nat (length x) / m) by (apply Z.div_le_lower_bound; lia). cbn in N. lia.
Qed.
(** Under every schedule the requests published are the encoded chunks 0, 1, 2, ... of the batch in order, without gaps or repetitions,
    and a call that returns an array has published all of them: the rows sent are exactly the rows of the batch. *)
Theorem C47_requests : forall x m cs flag buf cb ls s, 0 < m -> fpga_chunks x m = Ok cs -> run ls (call_start x m flag buf cb) = Some s ->
  (exists sent rest, cs = sent ++ rest /\ map Ok (s_sent s) = encodings 0 sent) /\
  (forall a, returned s = Some (Some a) -> map Ok (s_sent s) = encodings 0 cs).
Proof.
  intros x m cs flag buf cb ls s Hm E R. unfold call_start in R. rewrite E in R.
  assert (I : sent_inv cs s).
  { eapply run_inv; [intros; eapply sent_inv_step; eassumption|exact R|]. apply sent_inv_start. eapply array_split_nonempty; eauto. }
  destruct I as (done & Ed & Ei & Ea & P & c & r & Q & Ec). split; [exists (done ++ c), r; split; [now rewrite <- app_assoc|exact Q]|].
  intros a Ra. unfold returned in Ra. destruct (s_pc s) as [ | | | | | |[b|e]]; try discriminate. destruct P as [T P]. rewrite T, app_nil_r in Ed. now subst cs.
Qed.
Example C47_example :
  (exists cs, fpga_chunks [1; 2; 3; 4; 5; 6; 7] 3 = Ok cs /\ cs = [[1; 2; 3; 4]; [5; 6; 7]]) /\
  fpga_chunks [1; 2; 3; 4; 5] 3 = Ok [[1; 2; 3; 4; 5]] /\ fpga_chunks [1; 2] 3 = Err EValueError /\
  from_numpy 7 [[1; 2]; [3; 4]; [5; 6]]%Q = Ok (mkmsg 7 [3; 2]%nat [1; 2; 3; 4; 5; 6]%Q).
Proof. repeat split; try reflexivity. eexists; split; reflexivity. Qed.

(** ** C48 *)
(** The payloads of the well-formed replies of a schedule, in order of arrival. *)
Fixpoint received (ls : list label) : list arr :=
  match ls with
  | [] => []
  | LRecv g :: r => match as_numpy g with Ok a => a :: received r | Err _ => received r end
  | _ :: r => received r
  end.
Inductive subsequence {A} : list A -> list A -> Prop :=
| sub_nil : subsequence [] []
| sub_skip a l m : subsequence l m -> subsequence l (a :: m)
| sub_take a l m : subsequence l m -> subsequence (a :: l) (a :: m).
Lemma subsequence_nil {A} (l : list A) : subsequence [] l.
Proof. induction l; constructor; assumption. Qed.
Lemma subsequence_refl {A} (l : list A) : subsequence l l.
Proof. induction l; constructor; assumption. Qed.
Lemma subsequence_app {A} (a b c d : list A) : subsequence a b -> subsequence c d -> subsequence (a ++ c) (b ++ d).
Proof. intros H K. induction H; cbn; [exact K|constructor; assumption|constructor; assumption]. Qed.
Lemma received_app a b : received (a ++ b) = received a ++ received b.
Proof. induction a as [|l a IH]; cbn; [reflexivity|]. destruct l; rewrite ?IH; try reflexivity. now destruct (as_numpy g). Qed.

(** Invariant: the collected results were received during this call, each at most once and in order; the buffer, once reset for
    the current request, holds only something received after the reset. *)
Definition used_inv (seen : list arr) (s : st) : Prop :=
  exists past now, seen = past ++ now /\ subsequence (s_acc s) past /\
    match s_pc s with
    | PClear | PReset => True
    | PPublish | PWait | PCheck | PAppend => match s_res s with None => True | Some a => exists pre, now = pre ++ [a] end
    | PDone (Ok a) => concatenate (s_acc s) = Ok a
    | PDone (Err _) => True
    end.
Lemma used_inv_step seen l s s' : step l s = Some s' -> used_inv seen s -> used_inv (seen ++ received [l]) s'.
Proof.
  intros St (past & now & E & Sb & P). destruct l; cbn [step received] in *; rewrite ?app_nil_r.
  - destruct (s_pc s) eqn:Pc.
    + injection St as <-. exists past, now. cbn. auto.
    + injection St as <-. exists seen, []. rewrite app_nil_r. cbn. split; [reflexivity|]. split; [|exact I]. rewrite E, <- (app_nil_r (s_acc s)). apply subsequence_app; [exact Sb|apply subsequence_nil].
    + destruct (s_todo s) as [|c r]; [discriminate|]. destruct (from_numpy (s_i s) c); injection St as <-; exists past, now; cbn; auto.
    + destruct (s_flag s); [|discriminate]. injection St as <-. exists past, now. cbn. auto.
    + destruct (s_res s) eqn:R; injection St as <-; exists past, now; cbn; rewrite ?R; auto.
    + destruct (s_res s) as [a|] eqn:R; [|discriminate]. injection St as <-. destruct P as [pre ->]. exists (past ++ pre ++ [a]), [].
      rewrite app_nil_r. cbn. split; [exact E|]. split.
      * apply subsequence_app; [exact Sb|]. apply (subsequence_app [] pre [a] [a]); [apply subsequence_nil|apply subsequence_refl].
      * destruct (tl (s_todo s)); cbn; [|exact I]. destruct (concatenate (s_acc s ++ [a])) eqn:C; [reflexivity|exact I].
    + discriminate.
  - destruct (s_pc s) eqn:Pc; try discriminate. injection St as <-. exists past, now. cbn. auto.
  - destruct (s_cb s); [discriminate|]. destruct (as_numpy g) as [a|e]; injection St as <-.
    + exists past, (now ++ [a]). rewrite E, <- app_assoc. cbn. split; [reflexivity|]. split; [exact Sb|].
      destruct (s_pc s) as [ | | | | | |[b|e]]; try exact I; try (exists now; reflexivity). exact P.
    + rewrite app_nil_r. exists past, now. auto.
  - destruct (s_cb s); [|discriminate]. injection St as <-. exists past, now. cbn. auto.
Qed.
Lemma used_inv_run : forall ls seen s s', run ls s = Some s' -> used_inv seen s -> used_inv (seen ++ received ls) s'.
Proof.
  induction ls as [|l ls IH]; intros seen s s' E I; cbn [run] in E.
  - injection E as <-. cbn. now rewrite app_nil_r.
  - destruct (step l s) as [s1|] eqn:St; [|discriminate]. change (l :: ls) with ([l] ++ ls). rewrite received_app, app_assoc.
    eapply IH; [exact E|]. eapply used_inv_step; eauto.
Qed.
(** Whatever the schedule and whatever state earlier calls left behind: an array that is returned is the concatenation of one received
    payload per request; each received message is used at most once, in order of arrival, and none received before this call is used. *)
Theorem C48_only_received : forall x m cs flag buf cb ls s a, 0 < m -> fpga_chunks x m = Ok cs ->
  run ls (call_start x m flag buf cb) = Some s -> returned s = Some (Some a) ->
  exists rs, length rs = length cs /\ subsequence rs (received ls) /\ concatenate rs = Ok a.
Proof.
  intros x m cs flag buf cb ls s a Hm E R Ra. unfold call_start in R. rewrite E in R. assert (N := array_split_nonempty x m cs Hm E).
  assert (I : sent_inv cs s).
  { eapply run_inv; [intros; eapply sent_inv_step; eassumption|exact R|]. now apply sent_inv_start. }
  assert (U : used_inv ([] ++ received ls) s).
  { eapply used_inv_run; [exact R|]. exists [], []. cbn. split; [reflexivity|]. split; [constructor|]. destruct cs; [contradiction|constructor]. }
  destruct I as (done & Ed & Ei & Ea & P & _). destruct U as (past & now & Es & Sb & U). cbn in Es.
  unfold returned in Ra. destruct (s_pc s) as [ | | | | | |[b|e]]; try discriminate. injection Ra as ->. destruct P as [T P].
  exists (s_acc s). rewrite T, app_nil_r in Ed. subst done. split; [exact Ea|]. split; [|exact U].
  rewrite Es, <- (app_nil_r (s_acc s)). apply subsequence_app; [exact Sb|apply subsequence_nil].
Qed.

(** A timely environment: a message arrives only while the call waits for the reply to its latest request, at most once per request,
    and it is the encoding of the network's answers [f] to the rows of that request. *)
Fixpoint timely (f : list Q -> list Q) (ls : list label) (s : st) : Prop :=
  match ls with
  | [] => True
  | l :: r =>
    match l with
    | LRecv g => s_pc s = PWait /\ s_res s = None /\ exists c t, s_todo s = c :: t /\ from_numpy (s_i s) (map f c) = Ok g
    | _ => True
    end /\
    match step l s with Some s' => timely f r s' | None => True end
  end.
Section Timely.
Variable f : list Q -> list Q.
Variable w : nat.
Let reply (c : list (list Q)) : arr := mkarr [length c; w] (concat (map f c)).
Definition wide (c : list (list Q)) : Prop := c <> [] /\ Forall (fun r => length (f r) = w) c.
Lemma reply_decodes id c g : wide c -> from_numpy id (map f c) = Ok g -> as_numpy g = Ok (reply c).
Proof.
  intros [N F] E. rewrite (from_numpy_ok id (map f c) w) in E.
  - injection E as <-. unfold as_numpy. cbn [g_tensor g_shape prod]. rewrite (concat_rows w).
    + rewrite !map_length, Nat.mul_1_r, Nat.eqb_refl. reflexivity.
    + apply Forall_map. exact F.
  - destruct c; [contradiction|discriminate].
  - apply Forall_map. exact F.
Qed.
Lemma concatenate_replies cs : cs <> [] -> concatenate (map reply cs) = Ok (reply (concat cs)).
Proof.
  intros N. destruct cs as [|c cs]; [contradiction|]. set (l := c :: cs).
  transitivity (if forallb (fun b => match a_shape b with [] => false | _ :: r => shape_eqb r [w] end) (map reply l)
      then Ok (mkarr (fold_right (fun b n => (hd 0 (a_shape b) + n)%nat) 0%nat (map reply l) :: [w]) (concat (map a_data (map reply l)))) else Err EValueError);
    [reflexivity|].
  assert (F : forallb (fun b => match a_shape b with [] => false | _ :: r => shape_eqb r [w] end) (map reply l) = true).
  { apply forallb_forall. intros b Hb. apply in_map_iff in Hb as (d & <- & _). unfold reply. cbn [a_shape].
    unfold shape_eqb. destruct (list_eq_dec _ [w] [w]); [reflexivity|contradiction]. }
  rewrite F. clear F. f_equal. unfold reply. f_equal.
  - f_equal. clearbody l. induction l as [|d l IH]; cbn; [reflexivity|]. rewrite app_length. f_equal. exact IH.
  - clearbody l. induction l as [|d l IH]; cbn; [reflexivity|]. rewrite map_app, concat_app. f_equal. exact IH.
Qed.

Definition time_inv (cs : list (list (list Q))) (quiet : bool) (s : st) : Prop :=
  exists done, cs = done ++ s_todo s /\ s_acc s = map reply done /\
    match s_pc s with
    | PClear => s_todo s <> [] /\ (quiet = true -> s_cb s = false)
    | PReset => s_todo s <> [] /\ (quiet = true -> s_cb s = false /\ s_flag s = false)
    | PPublish => s_todo s <> [] /\ s_res s = None /\ (quiet = true -> s_cb s = false /\ s_flag s = false)
    | PWait => exists c r, s_todo s = c :: r /\
        (s_res s = None /\ (quiet = true -> s_cb s = false /\ s_flag s = false) \/
         s_res s = Some (reply c) /\ (quiet = true -> s_flag s = negb (s_cb s)))
    | PCheck | PAppend => exists c r, s_todo s = c :: r /\ (s_res s = None \/ s_res s = Some (reply c)) /\
        (quiet = true -> s_cb s = false /\ s_res s <> None)
    | PDone (Ok a) => s_todo s = [] /\ a = reply (concat cs)
    | PDone (Err _) => quiet = false
    end.
Lemma time_inv_step cs quiet l s s' : Forall wide cs -> step l s = Some s' -> (quiet = true -> l <> LTimeout) ->
  match l with
  | LRecv g => s_pc s = PWait /\ s_res s = None /\ exists c t, s_todo s = c :: t /\ from_numpy (s_i s) (map f c) = Ok g
  | _ => True end -> time_inv cs quiet s -> time_inv cs quiet s'.
Proof.
  intros W St NT T (done & E & Ea & P).
  assert (NC : cs <> [] -> True) by trivial. clear NC.
  destruct l; cbn [step] in St.
  - clear T. destruct (s_pc s) eqn:Pc.
    + injection St as <-. exists done. cbn. tauto.
    + injection St as <-. exists done. cbn. tauto.
    + destruct P as (N & Rn & P). destruct (s_todo s) as [|c r] eqn:Td; [contradiction|]. destruct (from_numpy (s_i s) c) as [g|e] eqn:G; injection St as <-.
      * exists done. cbn. split; [exact E|]. split; [exact Ea|]. exists c, r. split; [reflexivity|]. left. tauto.
      * exfalso. unfold from_numpy in G. assert (Wc : wide c). { rewrite E in W. apply Forall_app in W as [_ W]. now inversion W. }
        destruct Wc as [Nc _]. destruct (Nat.eqb_spec (length c) 0) as [H|H]; [apply length_zero_iff_nil in H; contradiction|discriminate].
    + destruct P as (c & r & Td & P). destruct (s_flag s) eqn:F; [|discriminate]. injection St as <-. exists done. cbn. rewrite Td in *. split; [exact E|]. split; [exact Ea|].
      exists c, r. split; [reflexivity|]. destruct P as [[Rn P]|[Rs P]].
      * split; [now left|]. intros Hq. destruct (P Hq). discriminate.
      * split; [now right|]. intros Hq. specialize (P Hq). split; [now destruct (s_cb s)|rewrite Rs; discriminate].
    + destruct P as (c & r & Td & P1 & P2). destruct (s_res s) as [a|] eqn:R; injection St as <-; exists done; cbn; (split; [exact E|]; split; [exact Ea|]).
      * exists c, r. split; [exact Td|]. split; [destruct P1 as [P1|P1]; [discriminate|now right]|]. intros Hq. destruct (P2 Hq). split; [assumption|discriminate].
      * destruct quiet; [exfalso; now destruct P2 as [_ P2]|reflexivity].
    + destruct P as (c & r & Td & P1 & P2). destruct (s_res s) as [a|] eqn:R; [|discriminate]. injection St as <-.
      destruct P1 as [P1|P1]; [discriminate|]. injection P1 as ->. exists (done ++ [c]). rewrite Td in *. cbn. rewrite <- app_assoc. split; [exact E|].
      split; [now rewrite Ea, map_app|]. destruct r as [|c2 r2]; cbn.
      * assert (C : s_acc s ++ [reply c] = map reply cs) by (now rewrite E, Ea, map_app). rewrite C, concatenate_replies by (rewrite E; now destruct done). split; reflexivity.
      * split; [discriminate|]. intros Hq. now destruct (P2 Hq).
    + discriminate.
  - destruct quiet; [now destruct NT|]. destruct (s_pc s) eqn:Pc; try discriminate. injection St as <-. exists done. cbn. split; [exact E|]. split; [exact Ea|].
    destruct P as (c & r & Td & P). exists c, r. split; [exact Td|]. split; [destruct P as [[P _]|[P _]]; auto|discriminate].
  - destruct T as (Pc & Rn & c & t & Td & G). destruct (s_cb s) eqn:Cb; [discriminate|].
    assert (Wc : wide c). { rewrite E, Td in W. apply Forall_app in W as [_ W]. now inversion W. }
    rewrite (reply_decodes _ _ _ Wc G) in St. injection St as <-. exists done. cbn. rewrite Pc in *. split; [exact E|]. split; [exact Ea|].
    exists c, t. split; [exact Td|]. right. split; [reflexivity|]. intros Hq. destruct P as (c' & r' & _ & [[_ P]|[P _]]); [now destruct (P Hq)|congruence].
  - destruct (s_cb s) eqn:Cb; [|discriminate]. injection St as <-. exists done. cbn. split; [exact E|]. split; [exact Ea|].
    destruct (s_pc s) as [ | | | | | |[b|e]]; try exact P.
    + destruct P as [P1 P2]. split; [exact P1|]. reflexivity.
    + destruct P as [P1 P2]. split; [exact P1|]. intros Hq. destruct (P2 Hq). discriminate.
    + destruct P as (P1 & P2 & P3). split; [exact P1|]. split; [exact P2|]. intros Hq. destruct (P3 Hq). discriminate.
    + destruct P as (c & r & Td & P). exists c, r. split; [exact Td|]. destruct P as [[P1 P2]|[P1 P2]]; [left|right]; split; auto.
      intros Hq. destruct (P2 Hq). discriminate.
    + destruct P as (c & r & Td & P1 & P2). exists c, r. split; [exact Td|]. split; [exact P1|]. intros Hq. destruct (P2 Hq). discriminate.
    + destruct P as (c & r & Td & P1 & P2). exists c, r. split; [exact Td|]. split; [exact P1|]. intros Hq. destruct (P2 Hq). discriminate.
Qed.
Lemma time_inv_run cs quiet : Forall wide cs -> forall ls s s', run ls s = Some s' -> (quiet = true -> ~ In LTimeout ls) -> timely f ls s -> time_inv cs quiet s -> time_inv cs quiet s'.
Proof.
  intros W. induction ls as [|l ls IH]; intros s s' E NT T I; cbn [run] in E; [now injection E as <-|]. cbn [timely] in T. destruct T as [T1 T2].
  destruct (step l s) as [s1|] eqn:St; [|discriminate]. apply (IH s1 s' E); [intros Hq H; apply (NT Hq); now right|exact T2|].
  eapply time_inv_step; eauto. intros Hq ->. apply (NT Hq). now left.
Qed.
End Timely.

(** In a timely environment the call returns the answers to all rows, in order, or None; and if in addition no wait times out and no
    callback was in progress when the call began, it returns the answers. *)
Theorem C48_timely : forall f w x m flag buf cb ls s o, 0 < m -> m <= Z.of_nat (length x) -> Forall (fun r => length (f r) = w) x ->
  timely f ls (call_start x m flag buf cb) -> run ls (call_start x m flag buf cb) = Some s -> returned s = Some o ->
  (o = None \/ o = Some (mkarr [length x; w] (concat (map f x)))) /\
  (cb = false -> ~ In LTimeout ls -> o = Some (mkarr [length x; w] (concat (map f x)))).
Proof.
  intros f w x m flag buf cb ls s o Hm L F T R Ro. destruct (proj2 (C47_sent_iff x m Hm) L) as [cs E].
  destruct (C47_chunks x m cs Hm E) as (C & _ & _ & Sz). assert (N := array_split_nonempty x m cs Hm E).
  assert (W : Forall (wide f w) cs).
  { apply Forall_forall. intros c Hc. split; [intros ->; specialize (Sz [] Hc); cbn in Sz; lia|].
    apply Forall_forall. intros r Hr. rewrite Forall_forall in F. apply F. rewrite <- C. apply in_concat. now exists c. }
  unfold call_start in T, R. rewrite E in T, R.
  assert (I : forall q, (q = true -> cb = false) -> (q = true -> ~ In LTimeout ls) -> time_inv f w cs q s).
  { intros q Hq NT. eapply time_inv_run; eauto. exists []. cbn. destruct cs as [|c cs']; [contradiction|]. cbn. repeat split; [discriminate|exact Hq]. }
  split.
  - destruct (I false) as (done & _ & _ & P); try discriminate. unfold returned in Ro. destruct (s_pc s) as [ | | | | | |[b|e]]; try discriminate.
    + injection Ro as <-. destruct P as [_ ->]. right. now rewrite C.
    + injection Ro as <-. now left.
  - intros Hcb NT. destruct (I true) as (done & _ & _ & P); [auto|auto|]. unfold returned in Ro. destruct (s_pc s) as [ | | | | | |[b|e]]; try discriminate.
    + injection Ro as <-. destruct P as [_ ->]. now rewrite C.
Qed.

(** ** Existence of schedules *)
Fixpoint messages (ls : list label) : list msg := match ls with [] => [] | LRecv g :: r => g :: messages r | _ :: r => messages r end.
Definition one_turn (g : msg) : list label := [LMain; LMain; LMain; LRecv g; LSet; LMain; LMain; LMain].
Lemma run_app a b s : run (a ++ b) s = match run a s with Some s' => run b s' | None => None end.
Proof. revert s. induction a as [|l a IH]; intros s; cbn; [reflexivity|]. now destruct (step l s). Qed.
Lemma one_turn_run g a i c todo acc flag buf sent : as_numpy g = Ok a -> c <> [] ->
  exists g0, run (one_turn g) (mkst PClear i (c :: todo) acc flag buf false sent) =
  Some (mkst (next_pc todo (acc ++ [a])) (S i) todo (acc ++ [a]) true (Some a) false (sent ++ [g0])).
Proof.
  intros G N. assert (X : exists g0, from_numpy i c = Ok g0).
  { unfold from_numpy. destruct (Nat.eqb_spec (length c) 0) as [H|H]; [apply length_zero_iff_nil in H; contradiction|eauto]. }
  destruct X as [g0 X]. exists g0. unfold one_turn. cbn. rewrite X. cbn. rewrite G. cbn. reflexivity.
Qed.
Lemma turns_run : forall gs cs rs i acc flag buf sent, length gs = length cs -> mapM as_numpy gs = Ok rs -> Forall (fun c => c <> []) cs -> cs <> [] ->
  exists s, run (concat (map one_turn gs)) (mkst (next_pc cs acc) i cs acc flag buf false sent) = Some s /\ s_pc s = PDone (concatenate (acc ++ rs)).
Proof.
  induction gs as [|g gs IH]; intros cs rs i acc flag buf sent L M F N; [destruct cs; [contradiction|discriminate]|].
  destruct cs as [|c cs]; [contradiction|]. cbn [mapM] in M. destruct (as_numpy g) as [a|] eqn:G; cbn [rbind] in M; [|discriminate].
  destruct (mapM as_numpy gs) as [rs'|] eqn:M'; cbn [rbind] in M; [|discriminate]. assert (rs = a :: rs') by congruence. subst rs. clear M.
  inversion F; subst. cbn [map concat]. rewrite run_app. cbn [next_pc]. destruct (one_turn_run g a i c cs acc flag buf sent G) as [g0 R]; [assumption|].
  rewrite R. destruct cs as [|c2 cs2].
  - destruct gs; [|discriminate]. cbn in M'. injection M' as <-. eexists. split; reflexivity.
  - destruct (IH (c2 :: cs2) rs' (S i) (acc ++ [a]) true (Some a) (sent ++ [g0])) as (s & Rs & P); [cbn in *; lia|reflexivity|assumption|discriminate|].
    exists s. split; [exact Rs|]. now rewrite P, <- app_assoc.
Qed.
Lemma messages_turns gs : messages (concat (map one_turn gs)) = gs.
Proof. induction gs; cbn; [reflexivity|]. now f_equal. Qed.
Lemma turns_no_timeout gs : ~ In LTimeout (concat (map one_turn gs)).
Proof. induction gs; cbn; [tauto|]. intros H. repeat (destruct H as [H|H]; [discriminate|]). contradiction. Qed.
Lemma chunks_nonempty {A} (x : list A) m cs : 0 < m -> fpga_chunks x m = Ok cs -> Forall (fun c => c <> []) cs.
Proof.
  intros Hm E. destruct (C47_chunks x m cs Hm E) as (_ & _ & _ & Sz). apply Forall_forall. intros c Hc ->. specialize (Sz [] Hc). cbn in Sz. lia.
Qed.
(** Identifiers are not checked: any messages at all, one arriving in each wait, are returned as the result of the call, whatever their
    identifiers and whichever requests (or earlier calls) they answer. *)
Theorem C48_ids_unchecked : forall x m cs flag buf gs rs a, 0 < m -> fpga_chunks x m = Ok cs -> length gs = length cs ->
  mapM as_numpy gs = Ok rs -> concatenate rs = Ok a ->
  exists ls s, messages ls = gs /\ ~ In LTimeout ls /\ run ls (call_start x m flag buf false) = Some s /\ returned s = Some (Some a).
Proof.
  intros x m cs flag buf gs rs a Hm E L M C. destruct (turns_run gs cs rs 0 [] flag buf [] L M) as (s & R & P).
  - now apply (chunks_nonempty x m).
  - now apply (array_split_nonempty x m).
  - exists (concat (map one_turn gs)), s. split; [apply messages_turns|]. split; [apply turns_no_timeout|]. unfold call_start. rewrite E.
    split; [exact R|]. unfold returned. rewrite P. cbn [app]. now rewrite C.
Qed.
(** A reply left over from an earlier call that arrives in the first wait shifts the whole batch: every chunk is given the answers
    of the chunk before it, the last chunk's answers are never returned, and nothing is reported. *)
Theorem C48_late_reply_shifts : forall f w x m init_cs last_c flag buf g0 n0 d0, 0 < m -> Forall (fun r => length (f r) = w) x ->
  fpga_chunks x m = Ok (init_cs ++ [last_c]) -> as_numpy g0 = Ok (mkarr [n0; w] d0) ->
  exists ls s replies, mapM (fun p => from_numpy (fst p) (map f (snd p))) (combine (seq 0 (length init_cs)) init_cs) = Ok replies /\
    messages ls = g0 :: replies /\ ~ In LTimeout ls /\ run ls (call_start x m flag buf false) = Some s /\
    returned s = Some (Some (mkarr [(n0 + length (concat init_cs))%nat; w] (d0 ++ concat (map f (concat init_cs))))).
Proof.
  intros f w x m ics lc flag buf g0 n0 d0 Hm F E G0. destruct (C47_chunks x m _ Hm E) as (C & _ & _ & Sz).
  assert (W : Forall (wide f w) ics).
  { apply Forall_forall. intros c Hc. assert (Hc' : In c (ics ++ [lc])) by (apply in_or_app; now left). split; [intros ->; specialize (Sz [] Hc'); cbn in Sz; lia|].
    apply Forall_forall. intros r Hr. rewrite Forall_forall in F. apply F. rewrite <- C. apply in_concat. now exists c. }
  set (reply c := mkarr [length c; w] (concat (map f c))).
  assert (R : forall l k, Forall (wide f w) l -> exists replies, mapM (fun p => from_numpy (fst p) (map f (snd p))) (combine (seq k (length l)) l) = Ok replies /\
     length replies = length l /\ mapM as_numpy replies = Ok (map reply l)).
  { induction l as [|c l IH]; intros k Fl; [exists []; repeat split|]. inversion Fl; subst. destruct (IH (S k)) as (rs & R1 & R2 & R3); [assumption|].
    destruct H1 as [Nc Fc]. assert (X : from_numpy k (map f c) = Ok (mkmsg k [length (map f c); w] (concat (map f c)))).
    { apply from_numpy_ok; [now destruct c|]. now apply Forall_map. }
    eexists (_ :: rs). cbn [length seq combine mapM fst snd]. rewrite X. cbn [rbind]. rewrite R1. cbn [rbind]. split; [reflexivity|].
    split; [cbn; lia|]. rewrite (reply_decodes f w k c _ (conj Nc Fc) X). cbn [rbind]. rewrite R3. reflexivity. }
  destruct (R ics 0%nat W) as (replies & R1 & R2 & R3). clear R.
  assert (Cc : concatenate (mkarr [n0; w] d0 :: map reply ics) = Ok (mkarr [(n0 + length (concat ics))%nat; w] (d0 ++ concat (map f (concat ics))))).
  { unfold concatenate. cbn [a_shape]. assert (Fb : forall l, forallb (fun b => match a_shape b with [] => false | _ :: r => shape_eqb r [w] end) (map reply l) = true).
    { intros l. apply forallb_forall. intros b Hb. apply in_map_iff in Hb as (d & <- & _). cbn. unfold shape_eqb. destruct (list_eq_dec _ [w] [w]); [reflexivity|contradiction]. }
    cbn [forallb a_shape]. assert (Sw : shape_eqb [w] [w] = true) by (unfold shape_eqb; destruct (list_eq_dec _ [w] [w]); [reflexivity|contradiction]).
    rewrite Sw, Fb. cbn [andb fold_right hd a_shape map a_data concat]. f_equal. f_equal.
    - f_equal. f_equal. clear. induction ics as [|d l IH]; cbn; [reflexivity|]. rewrite app_length. f_equal. exact IH.
    - f_equal. clear. induction ics as [|d l IH]; cbn; [reflexivity|]. rewrite map_app, concat_app. f_equal. exact IH. }
  destruct (C48_ids_unchecked x m (ics ++ [lc]) flag buf (g0 :: replies) (mkarr [n0; w] d0 :: map reply ics) (mkarr [(n0 + length (concat ics))%nat; w] (d0 ++ concat (map f (concat ics)))) Hm E) as (ls & s & M & NT & Rn & Ret); [| |exact Cc|].
  - cbn. rewrite app_length. cbn. lia.
  - cbn [mapM]. rewrite G0. cbn [rbind]. now rewrite R3.
  - exists ls, s, replies. repeat split; assumption.
Qed.
(** In every state left by earlier activity there is a timely schedule without timeouts that completes: the hypotheses of C48_timely are
    met for every batch with at least max_batch_size rows. *)
Theorem C48_timely_completes : forall f w x m flag buf, 0 < m -> m <= Z.of_nat (length x) -> Forall (fun r => length (f r) = w) x ->
  exists ls s, timely f ls (call_start x m flag buf false) /\ ~ In LTimeout ls /\ run ls (call_start x m flag buf false) = Some s /\
    returned s = Some (Some (mkarr [length x; w] (concat (map f x)))).
Proof.
  intros f w x m flag buf Hm L F. destruct (proj2 (C47_sent_iff x m Hm) L) as [cs E]. destruct (C47_chunks x m cs Hm E) as (C & _ & _ & Sz).
  assert (N := array_split_nonempty x m cs Hm E).
  assert (W : Forall (wide f w) cs).
  { apply Forall_forall. intros c Hc. split; [intros ->; specialize (Sz [] Hc); cbn in Sz; lia|].
    apply Forall_forall. intros r Hr. rewrite Forall_forall in F. apply F. rewrite <- C. apply in_concat. now exists c. }
  assert (X : forall l i acc fl bf sent, l <> [] -> Forall (wide f w) l -> exists ls s, timely f ls (mkst (next_pc l acc) i l acc fl bf false sent) /\ ~ In LTimeout ls /\
     run ls (mkst (next_pc l acc) i l acc fl bf false sent) = Some s /\ exists r, s_pc s = PDone r).
  { induction l as [|c l IH]; intros i acc fl bf sent Nl Fl; [contradiction|]. inversion Fl; subst. destruct H1 as [Nc Fc].
    assert (G : from_numpy i (map f c) = Ok (mkmsg i [length (map f c); w] (concat (map f c)))).
    { apply from_numpy_ok; [now destruct c|]. now apply Forall_map. }
    set (g := mkmsg _ _ _) in G. assert (Gd := reply_decodes f w i c g (conj Nc Fc) G).
    assert (G1 : exists g1, from_numpy i c = Ok g1).
    { unfold from_numpy. destruct (Nat.eqb_spec (length c) 0) as [H|H]; [apply length_zero_iff_nil in H; contradiction|eauto]. } destruct G1 as [g1 G1].
    assert (T : forall rest, (match run (one_turn g) (mkst PClear i (c :: l) acc fl bf false sent) with Some s' => timely f rest s' | None => True end) ->
       timely f (one_turn g ++ rest) (mkst PClear i (c :: l) acc fl bf false sent)).
    { intros rest Hr. unfold one_turn in *. cbn in *. rewrite G1 in *. cbn in *. rewrite Gd in *. cbn in *.
      repeat split; try exact Hr. exists c, l. now split. }
    destruct (one_turn_run g _ i c l acc fl bf sent Gd Nc) as [g0 R]. cbn [next_pc]. destruct l as [|c2 l2].
    - exists (one_turn g), (mkst (next_pc [] (acc ++ [mkarr [length c; w] (concat (map f c))])) (S i) [] (acc ++ [mkarr [length c; w] (concat (map f c))]) true (Some (mkarr [length c; w] (concat (map f c)))) false (sent ++ [g0])).
      split; [rewrite <- (app_nil_r (one_turn g)); apply T; now rewrite R|]. split; [cbn; intros H; repeat (destruct H as [H|H]; [discriminate|]); contradiction|].
      split; [exact R|]. eexists. reflexivity.
    - destruct (IH (S i) (acc ++ [mkarr [length c; w] (concat (map f c))]) true (Some (mkarr [length c; w] (concat (map f c)))) (sent ++ [g0])) as (ls & s & T1 & T2 & T3 & T4); [discriminate|assumption|].
      exists (one_turn g ++ ls), s. split; [apply T; rewrite R; exact T1|]. split.
      + intros H. apply in_app_or in H as [H|H]; [cbn in H; repeat (destruct H as [H|H]; [discriminate|]); contradiction|contradiction].
      + split; [rewrite run_app, R; exact T3|exact T4]. }
  destruct (X cs 0%nat [] flag buf [] N W) as (ls & s & T1 & T2 & T3 & r & T4).
  assert (CS : call_start x m flag buf false = mkst (next_pc cs []) 0 cs [] flag buf false []) by (unfold call_start; now rewrite E).
  exists ls, s. rewrite CS. split; [exact T1|]. split; [exact T2|]. split; [exact T3|].
  assert (Rr : exists o, returned s = Some o) by (unfold returned; rewrite T4; destruct r; eauto). destruct Rr as [o Ro].
  rewrite Ro. f_equal. rewrite <- CS in T1, T3. exact (proj2 (C48_timely f w x m flag buf false ls s o Hm L F T1 T3 Ro) eq_refl T2).
Qed.
(** The two-step reset (clear the event, then clear the buffer) is a race: a message that lands between the two makes the call give up
    without waiting, whatever the message and however fast the accelerator answers. *)
Theorem C48_reset_race : forall x m flag buf g a, 0 < m -> m <= Z.of_nat (length x) -> as_numpy g = Ok a ->
  exists ls s, messages ls = [g] /\ ~ In LTimeout ls /\ run ls (call_start x m flag buf false) = Some s /\ returned s = Some None.
Proof.
  intros x m flag buf g a Hm L G. destruct (proj2 (C47_sent_iff x m Hm) L) as [cs E]. assert (N := array_split_nonempty x m cs Hm E).
  assert (F := chunks_nonempty x m cs Hm E). destruct cs as [|c cs]; [contradiction|]. inversion F; subst.
  assert (G1 : exists g1, from_numpy 0 c = Ok g1).
  { unfold from_numpy. destruct (Nat.eqb_spec (length c) 0) as [H|H]; [apply length_zero_iff_nil in H; contradiction|eauto]. } destruct G1 as [g1 G1].
  exists [LMain; LRecv g; LSet; LMain; LMain; LMain; LMain]. eexists. split; [reflexivity|].
  split; [cbn; intros H; repeat (destruct H as [H|H]; [discriminate|]); contradiction|].
  unfold call_start. rewrite E. cbn. rewrite G. cbn. rewrite G1. cbn. split; reflexivity.
Qed.

(** ** LossFPGA *)
Fixpoint losses (ls : list llabel) : list Q :=
  match ls with [] => [] | MRecv (Some v) :: r => v :: losses r | _ :: r => losses r end.
Lemma losses_app a b : losses (a ++ b) = losses a ++ losses b.
Proof. induction a as [|l a IH]; cbn; [reflexivity|]. destruct l as [ | |[v|]| ]; cbn; rewrite ?IH; reflexivity. Qed.
Lemma last_snoc {A} (l : list A) a d : last (l ++ [a]) d = a.
Proof. induction l as [|b l IH]; cbn; [reflexivity|]. destruct (l ++ [a]) eqn:E; [now destruct l|exact IH]. Qed.
Definition loss_inv (loss0 : Q) (past : list llabel) (s : lst) : Prop :=
  l_loss s = last (losses past) loss0 /\ (l_flag s = true -> losses past <> [] \/ l_pc s = LClear) /\ (l_cb s = true -> losses past <> []) /\
  match l_pc s with
  | LRead false => losses past <> []
  | LDone (Ok v) => exists pre post, past = pre ++ MMain :: post /\ v = last (losses pre) loss0 /\ losses pre <> []
  | LDone (Err _) => In MTimeout past
  | LRead true => In MTimeout past
  | _ => True
  end.
Lemma loss_inv_run loss0 : forall ls past s s', lrun ls s = Some s' -> loss_inv loss0 past s -> loss_inv loss0 (past ++ ls) s'.
Proof.
  induction ls as [|l ls IH]; intros past s s' E I; cbn [lrun] in E; [injection E as <-; now rewrite app_nil_r|].
  destruct (lstep l s) as [s1|] eqn:St; [|discriminate]. replace (past ++ l :: ls) with ((past ++ [l]) ++ ls) by now rewrite <- app_assoc.
  apply (IH _ s1 s' E). clear IH E. destruct I as (I1 & I2 & I3 & I4). unfold loss_inv. rewrite losses_app.
  destruct l as [ | |o| ]; cbn [lstep losses] in *.
  - rewrite app_nil_r. destruct (l_pc s) as [ | | |[ | ]|r] eqn:Pc.
    + injection St as <-. cbn. repeat split; try tauto. discriminate.
    + injection St as <-. cbn. repeat split; try tauto. intros H. destruct (I2 H) as [|]; [now left|discriminate].
    + destruct (l_flag s) eqn:Fl; [|discriminate]. injection St as <-. cbn. destruct (I2 eq_refl) as [H|H]; [|discriminate]. repeat split; tauto.
    + injection St as <-. cbn. repeat split; try tauto. * intros H. destruct (I2 H) as [|]; [now left|discriminate]. * apply in_or_app. now left.
    + injection St as <-. cbn. repeat split; try tauto. exists past, []. now repeat split.
    + discriminate.
  - destruct (l_pc s) eqn:Pc; try discriminate. injection St as <-. rewrite app_nil_r. cbn. repeat split; try tauto.
    + intros H. destruct (I2 H) as [|]; [now left|discriminate].
    + apply in_or_app. right. now left.
  - destruct (l_cb s) eqn:Cb; [discriminate|]. destruct o as [v|]; injection St as <-.
    + cbn. rewrite last_snoc. assert (X : losses past ++ [v] <> []) by (now destruct (losses past)). repeat split; try tauto.
      destruct (l_pc s) as [ | | |[ | ]|[q|e]]; try exact I; try exact X.
      * apply in_or_app. now left. * destruct I4 as (pre & post & -> & E1 & E2). exists pre, (post ++ [MRecv (Some v)]). rewrite <- app_assoc. now repeat split.
      * apply in_or_app. now left.
    + rewrite app_nil_r. rewrite Cb. repeat split; try tauto.
      destruct (l_pc s) as [ | | |[ | ]|[q|e]]; try exact I; try exact I4; try (apply in_or_app; now left).
      destruct I4 as (pre & post & -> & E1 & E2). exists pre, (post ++ [MRecv None]). rewrite <- app_assoc. now repeat split.
  - destruct (l_cb s) eqn:Cb; [|discriminate]. injection St as <-. rewrite app_nil_r. cbn. repeat split; try tauto; try discriminate.
    destruct (l_pc s) as [ | | |[ | ]|[q|e]]; try exact I; try exact I4; try (apply in_or_app; now left).
    destruct I4 as (pre & post & -> & E1 & E2). exists pre, (post ++ [MSet]). rewrite <- app_assoc. now repeat split.
Qed.
(** Under every schedule in which no callback was in progress when the call began: a loss that is returned is the latest one received
    when the call read it, and at least one was received since the call began (never the initial 0 or a value left by an earlier call). *)
Theorem C48_loss_received : forall flag loss0 n ls s v, lrun ls (mklst LClear flag loss0 false n) = Some s -> l_pc s = LDone (Ok v) ->
  exists pre post, ls = pre ++ MMain :: post /\ losses pre <> [] /\ v = last (losses pre) loss0.
Proof.
  intros flag loss0 n ls s v R P. assert (I : loss_inv loss0 ([] ++ ls) s).
  { eapply loss_inv_run; [exact R|]. unfold loss_inv. cbn. repeat split; try discriminate. intros _. now right. }
  destruct I as (_ & _ & _ & I4). rewrite P in I4. cbn [app] in I4. destruct I4 as (pre & post & E & E1 & E2). now exists pre, post.
Qed.
(** If nothing arrives the caller gets a RuntimeError, never a stale number; and an error is returned only after a timeout. *)
Theorem C48_loss_timeout : forall flag loss0 n ls s r, lrun ls (mklst LClear flag loss0 false n) = Some s -> l_pc s = LDone r ->
  (losses ls = [] -> r = Err ERuntimeError) /\ (forall e, r = Err e -> In MTimeout ls).
Proof.
  intros flag loss0 n ls s r R P. split.
  - intros L. destruct r as [v|e].
    + destruct (C48_loss_received flag loss0 n ls s v R P) as (pre & post & E & N & _). rewrite E, losses_app in L. apply app_eq_nil in L as [L _]. contradiction.
    + assert (K : forall ls s s', lrun ls s = Some s' -> (forall e', l_pc s = LDone (Err e') -> e' = ERuntimeError) -> forall e', l_pc s' = LDone (Err e') -> e' = ERuntimeError).
      { clear. induction ls as [|l ls IH]; intros s s' E H; cbn in E; [now injection E as <-|]. destruct (lstep l s) as [s1|] eqn:St; [|discriminate].
        apply (IH s1 s' E). intros e' P. destruct l as [ | |[v|]| ]; cbn in St.
        - destruct (l_pc s) as [ | | |[ | ]|r]; try (injection St as <-; cbn in P; congruence); [destruct (l_flag s); [injection St as <-; cbn in P; congruence|discriminate]|discriminate].
        - destruct (l_pc s); try discriminate. injection St as <-. cbn in P. discriminate.
        - destruct (l_cb s); [discriminate|]. injection St as <-. now apply H.
        - destruct (l_cb s); [discriminate|]. injection St as <-. now apply H.
        - destruct (l_cb s); [|discriminate]. injection St as <-. now apply H. }
      f_equal. eapply K; [exact R| |exact P]. cbn. discriminate.
  - intros e ->. assert (I : loss_inv loss0 ([] ++ ls) s).
    { eapply loss_inv_run; [exact R|]. unfold loss_inv. cbn. repeat split; try discriminate. intros _. now right. }
    destruct I as (_ & _ & _ & I4). now rewrite P in I4.
Qed.
(** But a loss computed for the previous model is returned for the new one when its reply arrives just before the call: it is received
    before the new model is even published. *)
Theorem C48_loss_stale : forall flag loss0 n v, exists s, lrun [MRecv (Some v); MMain; MSet; MMain; MMain; MMain] (mklst LClear flag loss0 false n) = Some s /\
  l_pc s = LDone (Ok v) /\ l_sent s = S n.
Proof. intros. eexists. split; [reflexivity|]. split; reflexivity. Qed.

Example C48_example :
  let f := fun r => map (fun v => v * 2)%Q r in
  returned (match run (concat (map one_turn [mkmsg 9 [2; 1]%nat [2; 4]%Q; mkmsg 9 [2; 1]%nat [6; 8]%Q]))
    (call_start [[1]; [2]; [3]; [4]]%Q 2 true None false) with Some s => s | None => start [] false None false end)
  = Some (Some (mkarr [4; 1]%nat [2; 4; 6; 8]%Q)) /\ Forall (fun r => length (f r) = 1%nat) [[1]; [2]; [3]; [4]]%Q.
Proof. split; [reflexivity|repeat constructor]. Qed.
