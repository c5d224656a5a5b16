(** Lemmas for PropKLstm.v *)
From Verif Require Import Base BaseProofs DtypeModel DtypeProofs QuantModel QuantProofs LutModel LutProofs FcModel FcProofs FcLayer
  EngineModel EngineProofs DistModel DistProofs BuildModel PipeModel LstmModel KLstmModel PropCore PropFc PropEngine PropDist PropNodeLut PipeSpec PipeProofs
  LstmProofs PropLstm KLstmSpec.
From Verif Require NodeModel.
From Coq Require Import Lqa Qminmax.
Open Scope Z_scope.
Open Scope list_scope.

(** ** The float pass, one sample at a time *)
Fixpoint srun (fn : lfns) (l : klstm) (b h c : list Q) (xs : list (list Q)) : list fstep :=
  match xs with
  | [] => []
  | x :: r => let s := fstep_row fn l b h c x in s :: srun fn l b (fs_h s) (fs_c s) r
  end.
Definition dfs : fstep := mkfs [] [] [] [] [] [] [] [].

Lemma srun_length fn l b : forall xs h c, length (srun fn l b h c xs) = length xs.
Proof. induction xs as [|x xs IH]; intros h c; [reflexivity|]. cbn [srun length]. now rewrite IH. Qed.
Lemma frun_length fn l b : forall xs st, length (frun fn l b st xs) = length xs.
Proof. induction xs as [|x xs IH]; intros st; [reflexivity|]. cbn [frun length]. now rewrite IH. Qed.
Lemma frun_rows fn l b : forall xs st, (forall x, In x xs -> length x = length st) ->
  forall step, In step (frun fn l b st xs) -> length step = length st.
Proof.
  induction xs as [|x xs IH]; intros st Hx step Hs; [destruct Hs|]. cbn [frun] in Hs.
  set (s := map2 _ st x) in *. assert (L : length s = length st) by (unfold s; rewrite map2_length; [reflexivity|symmetry; apply Hx; now left]).
  destruct Hs as [<- | Hs]; [exact L|]. apply IH in Hs; [rewrite map_length in Hs; lia|].
  intros y Hy. rewrite map_length, L. apply Hx. now right.
Qed.
Lemma frun_srun fn l b : forall xs st i t, (forall x, In x xs -> length x = length st) -> (i < length st)%nat ->
  nth i (nth t (frun fn l b st xs) []) dfs =
  nth t (srun fn l b (fst (nth i st ([], []))) (snd (nth i st ([], []))) (map (fun x => nth i x []) xs)) dfs.
Proof.
  induction xs as [|x xs IH]; intros st i t Hx Hi.
  - cbn. destruct t; destruct i; reflexivity.
  - cbn [frun map srun]. set (s := map2 _ st x).
    assert (Lx : length st = length x) by (symmetry; apply Hx; now left).
    assert (L : length s = length st) by (unfold s; rewrite map2_length; [reflexivity|exact Lx]).
    assert (E : nth i s dfs = fstep_row fn l b (fst (nth i st ([], []))) (snd (nth i st ([], []))) (nth i x [])).
    { unfold s. rewrite map2_nth with (da := ([], [])) (db := @nil Q) by lia. reflexivity. }
    destruct t as [|t]; [exact E|]. cbn [nth]. rewrite IH.
    + assert (E2 : nth i (map (fun s0 => (fs_h s0, fs_c s0)) s) ([], []) = (fs_h (nth i s dfs), fs_c (nth i s dfs))).
      { change (@nil Q, @nil Q) with ((fun s0 => (fs_h s0, fs_c s0)) dfs). rewrite map_nth. reflexivity. }
      rewrite E2. cbn [fst snd]. rewrite E. reflexivity.
    + intros y Hy. rewrite map_length, L. apply Hx. now right.
    + rewrite map_length, L. exact Hi.
Qed.

(** ** One step *)
Lemma sumQ_upto_ext n (f g : nat -> Q) : (forall k, (k < n)%nat -> f k = g k) -> sumQ_upto n f = sumQ_upto n g.
Proof.
  intros H. unfold sumQ_upto, sum_upto. f_equal. apply map_ext_in. intros k Hk. apply in_seq in Hk. apply H. lia.
Qed.
Lemma rowmat_length m x w : length (rowmat m x w) = m.
Proof. unfold rowmat. now rewrite map_length, seq_length. Qed.
Lemma rowmat_nth m x w j : (j < m)%nat -> length x = length w ->
  nth j (rowmat m x w) 0%Q = sumQ_upto (length x) (fun k => nth k x 0 * nth j (nth k w []) 0)%Q.
Proof.
  intros Hj L. unfold rowmat. rewrite nth_map_seq by exact Hj.
  unfold sumQ_upto, sum_upto. change (fold_right Qplus 0%Q) with sumQ. f_equal.
  apply nth_ext with (d := 0%Q) (d' := 0%Q).
  - rewrite map2_length, map_length, seq_length by exact L. reflexivity.
  - intros i Hi. rewrite map2_length in Hi by exact L. rewrite map2_nth with (da := 0%Q) (db := @nil Q) by lia.
    rewrite nth_map_seq by lia. reflexivity.
Qed.
Lemma slice_nth {A} i j k (r : list A) d : (k < j - i)%nat -> nth k (slice i j r) d = nth (i + k) r d.
Proof.
  intros H. unfold slice. revert r. 
  assert (F : forall m (u : list A), (k < m)%nat -> nth k (firstn m u) d = nth k u d).
  { clear H. intros m u. revert k m. induction u as [|x u IH]; intros k m H; [now rewrite firstn_nil|].
    destruct m as [|m]; [lia|]. destruct k; [reflexivity|]. cbn. apply IH. lia. }
  intros r. rewrite F by exact H. clear H F. revert r. induction i as [|i IH]; intros r; [reflexivity|].
  destruct r; [destruct k; reflexivity|]. cbn. apply IH.
Qed.
Lemma slice_length {A} i j (r : list A) : (j <= length r)%nat -> length (slice i j r) = (j - i)%nat.
Proof. intros H. unfold slice. rewrite firstn_length, skipn_length. lia. Qed.
Lemma nth_firstn {A} k m (r : list A) d : (k < m)%nat -> nth k (firstn m r) d = nth k r d.
Proof. intros H. change (firstn m r) with (firstn m (skipn 0 r)). replace m with (m - 0)%nat by lia. fold (@slice A 0 m r). now rewrite slice_nth by lia. Qed.
Lemma nth_skipn {A} k m (r : list A) d : nth k (skipn m r) d = nth (m + k) r d.
Proof. revert r. induction m as [|m IH]; intros r; [reflexivity|]. destruct r; [destruct k; reflexivity|]. cbn. apply IH. Qed.

Definition agree (n : nat) (v : list Q) (f : nat -> Q) : Prop := length v = n /\ forall j, (j < n)%nat -> nth j v 0%Q = f j.
Lemma agree_ext n v f g : agree n v f -> (forall j, (j < n)%nat -> f j = g j) -> agree n v g.
Proof. intros [L H] E. split; [exact L|]. intros j Hj. now rewrite H, E. Qed.
Lemma agree_map n v f (F : Q -> Q) : agree n v f -> agree n (map F v) (fun j => F (f j)).
Proof.
  intros [L H]. split; [now rewrite map_length|]. intros j Hj.
  rewrite nth_indep with (d' := F 0%Q) by (rewrite map_length; lia). rewrite map_nth. now rewrite H.
Qed.
Lemma agree_map2 n v w f g (F : Q -> Q -> Q) : agree n v f -> agree n w g -> agree n (map2 F v w) (fun j => F (f j) (g j)).
Proof.
  intros [L H] [L' H']. split; [rewrite map2_length; lia|]. intros j Hj.
  rewrite map2_nth with (da := 0%Q) (db := 0%Q) by lia. now rewrite H, H'.
Qed.
(** weights of the layer *)
Definition wshaped (l : klstm) (b : list Q) : Prop :=
  length b = (4 * kl_units l)%nat /\ length (kl_U l) = kl_units l.
Lemma fstep_spec fn l b h c x s : wshaped l b -> length x = length (kl_K l) ->
  agree (kl_units l) h (st_h s) -> agree (kl_units l) c (st_c s) ->
  let r := fstep_row fn l b h c x in let n := kl_units l in let s' := lnext fn l b s x in
  let P g j := pre l b (st_h s) x g j in
  length (fs_pre r) = (4 * n)%nat /\
  (forall g j, (g < 4)%nat -> (j < n)%nat -> nth (g * n + j) (fs_pre r) 0%Q = P g j) /\
  agree n (fs_i r) (fun j => gate_fn fn 0 (P 0%nat j)) /\ agree n (fs_f r) (fun j => gate_fn fn 1 (P 1%nat j)) /\
  agree n (fs_g r) (fun j => gate_fn fn 2 (P 2%nat j)) /\ agree n (fs_o r) (fun j => gate_fn fn 3 (P 3%nat j)) /\
  agree n (fs_c r) (st_c s') /\ agree n (fs_a r) (fun j => fn_tanh fn (st_c s' j)) /\ agree n (fs_h r) (st_h s').
Proof.
  intros [Lb LU] Lx [Lh Hh] Hc r n s' P. subst n.
  set (n := kl_units l) in *. unfold fstep_row in r. fold n in r. cbv zeta in r.
  set (y := map2 Qplus (rowmat (4 * n) h (kl_U l)) (map2 Qplus (rowmat (4 * n) x (kl_K l)) b)) in r.
  assert (Ly' : length (map2 Qplus (rowmat (4 * n) x (kl_K l)) b) = (4 * n)%nat) by (rewrite map2_length; rewrite rowmat_length; lia).
  assert (Ly : length y = (4 * n)%nat) by (unfold y; rewrite map2_length; rewrite rowmat_length; lia).
  assert (HP : forall g j, (g < 4)%nat -> (j < n)%nat -> nth (g * n + j) y 0%Q = P g j).
  { intros g j Hg Hj. assert (B : (g * n + j < 4 * n)%nat) by nia. unfold y.
    rewrite map2_nth with (da := 0%Q) (db := 0%Q) by (rewrite ?rowmat_length, ?Ly'; lia).
    rewrite map2_nth with (da := 0%Q) (db := 0%Q) by (rewrite ?rowmat_length; lia).
    rewrite !rowmat_nth by lia. unfold P, pre. fold n. f_equal. rewrite Lh. apply sumQ_upto_ext. intros k Hk. unfold entry. now rewrite Hh. }
  assert (G : forall g u, (g < 4)%nat -> length u = n -> (forall j, (j < n)%nat -> nth j u 0%Q = nth (g * n + j) y 0%Q) -> agree n u (P g)).
  { intros g u Hg Lu Hu. split; [exact Lu|]. intros j Hj. rewrite Hu by exact Hj. now apply HP. }
  assert (Gi : agree n (map (fn_sig fn) (firstn n y)) (fun j => gate_fn fn 0 (P 0%nat j))).
  { apply agree_map, G; [lia|rewrite firstn_length; lia|]. intros j Hj. rewrite nth_firstn by exact Hj. f_equal. }
  assert (Gf : agree n (map (fn_sig fn) (slice n (2 * n) y)) (fun j => gate_fn fn 1 (P 1%nat j))).
  { apply agree_map, G; [lia|rewrite slice_length; lia|]. intros j Hj. rewrite slice_nth by lia. f_equal. lia. }
  assert (Gg : agree n (map (fn_tanh fn) (slice (2 * n) (3 * n) y)) (fun j => gate_fn fn 2 (P 2%nat j))).
  { apply agree_map, G; [lia|rewrite slice_length; lia|]. intros j Hj. rewrite slice_nth by lia. f_equal. }
  assert (Go : agree n (map (fn_sig fn) (skipn (3 * n) y)) (fun j => gate_fn fn 3 (P 3%nat j))).
  { apply agree_map, G; [lia|rewrite skipn_length; lia|]. intros j Hj. rewrite nth_skipn. f_equal. }
  assert (Gc : agree n (fs_c r) (st_c s')).
  { apply (agree_ext n _ _ _ (agree_map2 n _ _ _ _ Qplus (agree_map2 n _ _ _ _ Qmult Gf Hc) (agree_map2 n _ _ _ _ Qmult Gi Gg))). reflexivity. }
  assert (Ga : agree n (fs_a r) (fun j => fn_tanh fn (st_c s' j))) by (apply (agree_map n _ _ (fn_tanh fn) Gc)).
  split; [exact Ly|]. split; [exact HP|]. split; [exact Gi|]. split; [exact Gf|]. split; [exact Gg|]. split; [exact Go|].
  split; [exact Gc|]. split; [exact Ga|].
  apply (agree_ext n _ _ _ (agree_map2 n _ _ _ _ Qmult Go Ga)). reflexivity.
Qed.
Definition rec_spec fn l b s0 (xs : list (list Q)) (t : nat) (r : fstep) : Prop :=
  let n := kl_units l in let sp := fold_left (lnext fn l b) (firstn t xs) s0 in
  let s' := fold_left (lnext fn l b) (firstn (S t) xs) s0 in let P g j := pre l b (st_h sp) (nth t xs []) g j in
  length (fs_pre r) = (4 * n)%nat /\
  (forall g j, (g < 4)%nat -> (j < n)%nat -> nth (g * n + j) (fs_pre r) 0%Q = P g j) /\
  agree n (fs_i r) (fun j => gate_fn fn 0 (P 0%nat j)) /\ agree n (fs_f r) (fun j => gate_fn fn 1 (P 1%nat j)) /\
  agree n (fs_g r) (fun j => gate_fn fn 2 (P 2%nat j)) /\ agree n (fs_o r) (fun j => gate_fn fn 3 (P 3%nat j)) /\
  agree n (fs_c r) (st_c s') /\ agree n (fs_a r) (fun j => fn_tanh fn (st_c s' j)) /\ agree n (fs_h r) (st_h s').
Lemma srun_spec fn l b : wshaped l b -> forall xs h c s0, (forall x, In x xs -> length x = length (kl_K l)) ->
  agree (kl_units l) h (st_h s0) -> agree (kl_units l) c (st_c s0) ->
  forall t, (t < length xs)%nat -> rec_spec fn l b s0 xs t (nth t (srun fn l b h c xs) dfs).
Proof.
  intros W. induction xs as [|x xs IH]; intros h c s0 Hx Hh Hc t Ht; [cbn in Ht; lia|].
  pose proof (fstep_spec fn l b h c x s0 W (Hx x (or_introl eq_refl)) Hh Hc) as F. cbv zeta in F.
  destruct t as [|t]; [exact F|]. cbn [srun nth].
  destruct F as (_ & _ & _ & _ & _ & _ & Fc & _ & Fh).
  apply (IH _ _ _ ltac:(intros; apply Hx; now right) Fh Fc t). cbn in Ht. lia.
Qed.

Lemma nth_map_in {A B} (f : A -> B) (u : list A) k da db : (k < length u)%nat -> nth k (map f u) db = f (nth k u da).
Proof. intros H. rewrite nth_indep with (d' := f da) by (now rewrite map_length). apply map_nth. Qed.
Lemma reference_shape fn l b T data : length (reference fn l b T data) = T /\ forall step, In step (reference fn l b T data) -> length step = length data.
Proof.
  unfold reference, by_time. split; [rewrite frun_length, map_length, seq_length; reflexivity|].
  intros step Hs. apply frun_rows in Hs; [now rewrite map_length in Hs|].
  intros x Hx. apply in_map_iff in Hx as (t & <- & _). now rewrite !map_length.
Qed.
Lemma map_nth_id {A} (u : list A) d : map (fun t => nth t u d) (seq 0 (length u)) = u.
Proof.
  apply nth_ext with (d := d) (d' := d); [now rewrite map_length, seq_length|]. intros k Hk. rewrite map_length, seq_length in Hk.
  now rewrite nth_map_seq.
Qed.
Lemma reference_spec fn l b T data i t : lstm_shaped l b T data -> (i < length data)%nat -> (t < T)%nat ->
  rec_spec fn l b (mkst (fun _ => 0%Q) (fun _ => 0%Q)) (nth i data []) t (nth i (nth t (reference fn l b T data) []) dfs).
Proof.
  intros S Hi Ht. unfold reference. rewrite frun_srun.
  - assert (Z : nth i (map (fun _ : list (list Q) => (repeat 0%Q (kl_units l), repeat 0%Q (kl_units l))) data) ([], []) = (repeat 0%Q (kl_units l), repeat 0%Q (kl_units l))).
    { now rewrite (nth_map_in _ data i [] _ Hi). }
    rewrite Z. cbn [fst snd]. assert (In (nth i data []) data) by now apply nth_In.
    assert (LT : length (nth i data []) = T) by (apply (ls_time _ _ _ _ S); assumption).
    assert (E : map (fun x : list (list Q) => nth i x []) (by_time T data) = nth i data []).
    { unfold by_time. rewrite map_map. rewrite <- (map_nth_id (nth i data []) []) at 1. rewrite LT. apply map_ext_in. intros k Hk.
      now rewrite (nth_map_in (fun s => nth k s []) data i [] [] Hi). }
    rewrite E. apply srun_spec.
    + split; [apply (ls_blen _ _ _ _ S)|apply (ls_Ul _ _ _ _ S)].
    + intros x Hx. eapply (ls_rows _ _ _ _ S); eassumption.
    + split; [apply repeat_length|]. intros j Hj. cbn [st_h]. apply nth_repeat.
    + split; [apply repeat_length|]. intros j Hj. cbn [st_c]. apply nth_repeat.
    + lia.
  - intros x Hx. unfold by_time in Hx. apply in_map_iff in Hx as (k & <- & _). now rewrite !map_length.
  - now rewrite map_length.
Qed.

(** ** Calibration values *)
Lemma hull_incl a b v : incl a b -> in_hull a v -> in_hull b v.
Proof.
  intros H (x & y & Hx & Hy & A). exists x, y.
  assert (forall z, In z (0%Q :: a) -> In z (0%Q :: b)) by (intros z [<- | Hz]; [now left|right; now apply H]). auto.
Qed.
Lemma in_calib f n T data v : In v (calib f n T data) <-> exists i t j, (i < length data)%nat /\ (t < T)%nat /\ (j < n)%nat /\ v = f (nth i data []) t j.
Proof.
  unfold calib. rewrite in_flat_map. split.
  - intros (xs & Hx & Hv). apply in_flat_map in Hv as (t & Ht & Hv). apply in_map_iff in Hv as (j & <- & Hj).
    apply In_nth with (d := []) in Hx as (i & Hi & <-). apply in_seq in Ht, Hj. exists i, t, j. repeat split; lia.
  - intros (i & t & j & Hi & Ht & Hj & ->). exists (nth i data []). split; [now apply nth_In|].
    apply in_flat_map. exists t. split; [apply in_seq; lia|]. apply in_map. apply in_seq. lia.
Qed.
Lemma in_records (F : fstep -> list Q) rec t i k r : (t < length rec)%nat -> (i < length (nth t rec []))%nat -> r = nth i (nth t rec []) dfs ->
  (k < length (F r))%nat -> In (nth k (F r) 0%Q) (concat (concat (map (map F) rec))).
Proof.
  intros Ht Hi -> Hk. apply in_concat. exists (F (nth i (nth t rec []) dfs)). split; [|now apply nth_In].
  apply in_concat. exists (map F (nth t rec [])). split; [apply in_map, nth_In, Ht|apply in_map, nth_In, Hi].
Qed.
Lemma calib_map (F : Q -> Q) f n T' data : map F (calib f n T' data) = calib (fun xs t j => F (f xs t j)) n T' data.
Proof.
  assert (A : forall xs ts, map F (flat_map (fun t => map (f xs t) (seq 0 n)) ts) = flat_map (fun t => map (fun j => F (f xs t j)) (seq 0 n)) ts).
  { intros xs. induction ts as [|t ts IH]; [reflexivity|]. cbn [flat_map]. rewrite map_app, IH, map_map. reflexivity. }
  unfold calib. induction data as [|xs d IH]; [reflexivity|]. cbn [flat_map]. rewrite map_app, IH, A. reflexivity.
Qed.
Section Incl.
  Variables (fn : lfns) (l : klstm) (b : list Q) (T : nat) (data : list (list (list Q))).
  Hypothesis Sh : lstm_shaped l b T data.
  Notation rec := (reference fn l b T data).
  Lemma rec_at i t : (i < length data)%nat -> (t < T)%nat -> (t < length rec)%nat /\ (i < length (nth t rec []))%nat.
  Proof.
    intros Hi Ht. destruct (reference_shape fn l b T data) as [L1 L2]. split; [lia|].
    rewrite (L2 (nth t rec [])); [exact Hi|apply nth_In; lia].
  Qed.
  Lemma incl_gen (f : list (list Q) -> nat -> nat -> Q) (F : fstep -> list Q) :
    (forall i t, (i < length data)%nat -> (t < T)%nat -> agree (kl_units l) (F (nth i (nth t rec []) dfs)) (f (nth i data []) t)) ->
    incl (calib f (kl_units l) T data) (concat (concat (map (map F) rec))).
  Proof.
    intros H v Hv. apply in_calib in Hv as (i & t & j & Hi & Ht & Hj & ->).
    destruct (H i t Hi Ht) as [L A]. rewrite <- A by exact Hj. destruct (rec_at i t Hi Ht).
    eapply in_records; [| |reflexivity|]; try assumption. lia.
  Qed.
  Lemma agree_part g u (P : nat -> nat -> Q) n : length u = (4 * n)%nat -> (g < 4)%nat ->
    (forall g j, (g < 4)%nat -> (j < n)%nat -> nth (g * n + j) u 0%Q = P g j) -> agree n (part n g u) (P g).
  Proof.
    intros Lu Hg HP. unfold part. split; [rewrite slice_length; nia|]. intros j Hj. rewrite slice_nth by nia. now apply HP.
  Qed.
  Lemma incl_pre g : (g < 4)%nat -> incl (calib (fun xs t j => pre_at fn l b xs t g j) (kl_units l) T data) (pre_part (kl_units l) g rec).
  Proof.
    intros Hg. apply (incl_gen (fun xs t j => pre_at fn l b xs t g j)). intros i t Hi Ht. destruct (reference_spec fn l b T data i t Sh Hi Ht) as (L & A & _).
    apply (agree_part g _ (fun g j => pre_at fn l b (nth i data []) t g j)); assumption.
  Qed.
  Lemma incl_out_pre : incl (calib (fun xs t j => pre_at fn l b xs t 3 j) (kl_units l) T data) (output_gate_data (kl_units l) rec).
  Proof.
    apply (incl_gen (fun xs t j => pre_at fn l b xs t 3%nat j)). intros i t Hi Ht. destruct (reference_spec fn l b T data i t Sh Hi Ht) as (L & A & _).
    split; [rewrite skipn_length; lia|]. intros j Hj. rewrite nth_skipn. apply (A 3%nat j); [lia|exact Hj].
  Qed.
  Lemma incl_in_pre g : (g < 4)%nat -> incl (calib (fun xs t j => pre_at fn l b xs t g j) (kl_units l) (Nat.min T (kl_units l)) data) (input_gate_data (kl_units l) rec).
  Proof.
    intros Hg v Hv. apply in_calib in Hv as (i & t & j & Hi & Ht & Hj & ->).
    destruct (reference_spec fn l b T data i t Sh Hi ltac:(lia)) as (L & A & _).
    change (pre_at fn l b (nth i data []) t g j) with (pre l b (st_h (fold_left (lnext fn l b) (firstn t (nth i data [])) (mkst (fun _ => 0%Q) (fun _ => 0%Q)))) (nth t (nth i data []) []) g j).
    rewrite <- A by assumption. destruct (rec_at i t Hi ltac:(lia)) as [R1 R2].
    unfold input_gate_data. assert (E : nth t (firstn (kl_units l) rec) [] = nth t rec []) by (apply nth_firstn; lia).
    apply (in_records fs_pre (firstn (kl_units l) rec) t i (g * kl_units l + j)).
    - rewrite firstn_length. lia.
    - rewrite E. exact R2.
    - rewrite E. reflexivity.
    - rewrite L. nia.
  Qed.
  Lemma incl_cell : incl (calib (cell_at fn l b) (kl_units l) T data) (concat (concat (map (map fs_c) rec))).
  Proof. apply incl_gen. intros i t Hi Ht. destruct (reference_spec fn l b T data i t Sh Hi Ht) as (_ & _ & _ & _ & _ & _ & A & _). exact A. Qed.
  Lemma incl_hidden : incl (calib (hidden_at fn l b) (kl_units l) T data) (concat (concat (map (map fs_h) rec))).
  Proof. apply incl_gen. intros i t Hi Ht. destruct (reference_spec fn l b T data i t Sh Hi Ht) as (_ & _ & _ & _ & _ & _ & _ & _ & A). exact A. Qed.
  Lemma incl_map_mono (F : Q -> Q) a c : incl a c -> incl (map F a) (map F c).
  Proof. intros H v Hv. apply in_map_iff in Hv as (x & <- & Hx). apply in_map, H, Hx. Qed.
  (** data is never empty *)
  Lemma calib_ne f T' : (0 < T')%nat -> calib f (kl_units l) T' data <> [].
  Proof.
    intros HT. destruct Sh as [Su _ _ Sd _ _ _ _ _ _ _].
    assert (H : In (f (nth 0 data []) 0%nat 0%nat) (calib f (kl_units l) T' data)).
    { apply in_calib. exists 0%nat, 0%nat, 0%nat. repeat split; try lia. destruct data; [congruence|cbn; lia]. }
    intros E. rewrite E in H. destruct H.
  Qed.
  Lemma incl_ne {A} (a c : list A) : incl a c -> a <> [] -> c <> [].
  Proof. intros H N ->. destruct a as [|x a]; [congruence|]. destruct (H x). now left. Qed.
End Incl.

(** ** Exported nodes *)
Lemma short_narrow q : short q -> narrow q.
Proof. unfold short, narrow, within_int32. intros (A & B & C & D). assert (2 ^ 16 = 65536) by reflexivity. assert (2 ^ 31 = 2147483648) by reflexivity. lia. Qed.
Definition nfits (n : node) (data : list Q) : Prop :=
  forall v, in_hull data v -> (inject_Z (gmin (n_dtype n)) - (1#2) <= real_code v (n_scale n) (zp0 n) <= inject_Z (gmax (n_dtype n)) + (1#2))%Q.
Lemma nfits_incl n a c : incl a c -> nfits n c -> nfits n a.
Proof. intros I H v Hv. apply H. eapply hull_incl; eassumption. Qed.
Lemma nfits_represents n q data v : narrow q -> node_good n q -> nfits n data -> in_hull data v -> represents n v.
Proof.
  intros N [D P (z & Z1 & Z2)] F H. specialize (F v H). unfold represents, val. rewrite D in *. unfold zp0 in *. rewrite Z1 in *.
  destruct (quant1_near q (n_scale n) z v v 0 N P ltac:(lra) F) as [_ E].
  - setoid_replace (v - v)%Q with 0%Q by ring. discriminate.
  - setoid_replace (n_scale n * (1#2))%Q with (0 + n_scale n * (1#2))%Q by ring. exact E.
Qed.
Lemma scale_zp_ok data q : narrow q -> data <> [] -> exists s z, get_scale_zp data q false = Ok (s, z) /\
  forall t lu, node_good (mknode s (Some z) q t lu) q /\ nfits (mknode s (Some z) q t lu) data.
Proof.
  intros N NE. destruct (calib_total data NE) as (d & _ & _ & E & _).
  destruct (calib_params data q d N NE E) as (s & z & EQ & P & Z1 & H).
  exists s, z. unfold get_scale_zp. rewrite E. cbn [rbind]. split; [exact EQ|]. intros t lu. split.
  - constructor; [reflexivity|exact P|]. exists z. split; [reflexivity|exact Z1].
  - intros v Hv. cbn [n_dtype n_scale zp0 n_zp]. apply H, Hv.
Qed.
(** the symmetric cell state: real codes within [-max, max] *)
Lemma sym_ok data q : narrow q -> 0 < gmax q -> gmin q <= - gmax q -> data <> [] -> exists s, get_scale_zp data q true = Ok (s, 0) /\ (0 < s)%Q /\
  forall v, in_hull data v -> (- inject_Z (gmax q) <= v / s <= inject_Z (gmax q))%Q.
Proof.
  intros N P M NE. destruct (calib_total data NE) as (d & lo & hi & E & R & LH & IN).
  destruct (forced_params d q true 0 lo hi R (min_lt_max _ _ LH) ltac:(cbn; lia) ltac:(cbn; lia)) as (s & A & B & C).
  exists s. unfold get_scale_zp. rewrite E. cbn [rbind]. split; [exact A|]. split; [exact B|].
  intros v Hv. apply C. eapply hull_range; eassumption.
Qed.
Lemma part_length {A} n g (r : list A) : length r = (4 * n)%nat -> (g < 4)%nat -> length (part n g r) = n.
Proof. intros L H. unfold part. rewrite slice_length; nia. Qed.
Lemma part_nth {A} n g (r : list A) j d : (j < n)%nat -> nth j (part n g r) d = nth (g * n + j) r d.
Proof. intros H. unfold part. rewrite slice_nth by nia. reflexivity. Qed.
(** a weight node: every code stands for its weight up to half a step *)
Record weights_ok (nd : node) (q : gdtype) (n g : nat) (m : list (list Q)) : Prop := {
  wo_good : node_good nd q;
  wo_dims : dims nd (length m) n;
  wo_code : forall k j, (k < length m)%nat -> (j < n)%nat -> in_dtype q (code nd k j) /\ (Qabs (val nd (code nd k j) - entry m n g k j) <= n_scale nd * (1#2))%Q }.
Lemma gate_kernel_ok q n g m : narrow q -> (0 < n)%nat -> (g < 4)%nat -> m <> [] -> (forall r, In r m -> length r = (4 * n)%nat) ->
  exists nd, gate_kernel q n g m = Ok nd /\ weights_ok nd q n g m.
Proof.
  intros N Hn Hg NE Hm. set (t := map (part n g) m).
  assert (LT : forall r, In r t -> length r = n) by (intros r Hr; apply in_map_iff in Hr as (r0 & <- & H0); apply part_length; [now apply Hm|exact Hg]).
  assert (NC : concat t <> []) by (apply (concat_ne t n); [unfold t; destruct m; [congruence|discriminate]|exact Hn|exact LT]).
  destruct (scale_zp_ok (concat t) q N NC) as (s & z & E & G). unfold gate_kernel. fold t. rewrite E. cbn [rbind fst snd].
  eexists. split; [reflexivity|]. unfold tensor_node. destruct (G (map (map (quant1 q z s)) t) None) as [G1 G2].
  set (nd := mknode s (Some z) q (map (map (quant1 q z s)) t) None) in *. constructor; [exact G1| |].
  - split; [cbn [n_tensor nd]; unfold t; now rewrite !map_length|].
    cbn [n_tensor nd]. intros r Hr. apply in_map_iff in Hr as (r0 & <- & H0). rewrite map_length. now apply LT.
  - intros k j Hk Hj.
    assert (HI : In (nth k m []) m) by now apply nth_In.
    assert (Lk : length (nth k m []) = (4 * n)%nat) by now apply Hm.
    assert (Ec : code nd k j = quant1 q z s (entry m n g k j)).
    { unfold code. cbn [n_tensor nd]. rewrite (nth_map_in _ t k []) by (unfold t; now rewrite map_length).
      unfold t. rewrite (nth_map_in _ m k []) by exact Hk.
      rewrite (nth_map_in _ _ j 0%Q) by (now rewrite part_length). f_equal. apply part_nth, Hj. }
    rewrite Ec. split; [apply q_round_range, N|].
    assert (HH : in_hull (concat t) (entry m n g k j)).
    { exists (entry m n g k j), (entry m n g k j). 
      assert (In (entry m n g k j) (concat t)).
      { apply in_concat. exists (part n g (nth k m [])). split; [apply in_map, HI|]. unfold entry. rewrite <- part_nth by exact Hj.
        apply nth_In. now rewrite part_length. }
      repeat split; try (now right); apply Qle_refl. }
    exact (nfits_represents nd q _ _ N G1 G2 HH).
Qed.
Definition table_of (q : gdtype) (f : Q -> Q) (inp out : node) : NodeModel.lut :=
  NodeModel.lut_new q f (n_scale inp) (zp0 inp) (n_scale out) (zp0 out).
Definition has_table (nd : node) (q : gdtype) (f : Q -> Q) (inp out : node) : Prop :=
  n_lut nd = Some (mklutj (Some (NodeModel.l_table (table_of q f inp out))) None (Some (NodeModel.lut_offset (table_of q f inp out)))).
Lemma act_pair_ok f data q inp : narrow q -> data <> [] -> exists a o, act_pair f data q inp = Ok (a, o) /\
  node_good o q /\ nfits o (map f data) /\ has_table a (n_dtype inp) f inp o /\ n_scale a = n_scale inp /\ n_zp a = n_zp inp /\ n_dtype a = n_dtype inp.
Proof.
  intros N NE. assert (NE' : map f data <> []) by (destruct data; [congruence|discriminate]).
  destruct (scale_zp_ok _ q N NE') as (s & z & E & G). unfold act_pair. rewrite E. cbn [rbind fst snd].
  eexists _, _. split; [reflexivity|]. destruct (G [] None) as [G1 G2]. unfold plain_node. split; [exact G1|]. split; [exact G2|].
  split; [reflexivity|]. repeat split; reflexivity.
Qed.
(** what the exported operator satisfies *)
Record lstm_exported (fn : lfns) (q : lqs) (l : klstm) (b : list Q) (T : nat) (data : list (list (list Q))) (input : node) (e : lstm_export) : Prop := {
  le_len : length (le_ins e) = 32%nat;
  le_input : x_in e = input;
  le_kernel : forall g, (g < 4)%nat -> weights_ok (x_kernel e g) (q_kernel q) (kl_units l) g (kl_K l);
  le_rec : forall g, (g < 4)%nat -> weights_ok (x_rec e g) (q_rec q) (kl_units l) g (kl_U l);
  le_bias : forall g, (g < 4)%nat -> x_bias e g = gate_bias (q_bias q) (kl_units l) g (n_scale input) (x_kernel e g) b;
  le_pre : forall g, (g < 4)%nat -> node_good (x_pre e g) (q_rec_add q) /\ nfits (x_pre e g) (calib (fun xs t j => pre_at fn l b xs t g j) (kl_units l) T data);
  le_table : forall g, (g < 4)%nat -> has_table (x_gate_in e g) (q_rec_add q) (gate_fn fn g) (x_pre e g) (x_gate e g);
  le_gate : forall g, (g < 4)%nat -> node_good (x_gate e g) (q_act q) /\ nfits (x_gate e g) (gate_calib fn l b T data g);
  le_cell : node_good (x_cell e) (q_cell q) /\ n_zp (x_cell e) = Some 0;
  le_cell_fit : forall v, in_hull (calib (cell_at fn l b) (kl_units l) T data) v ->
     (- inject_Z (gmax (q_cell q)) <= v / n_scale (x_cell e) <= inject_Z (gmax (q_cell q)))%Q;
  le_act_table : has_table (x_act_in e) (q_cell q) (fn_tanh fn) (x_cell e) (x_act e);
  le_act : node_good (x_act e) (q_cell q) /\ nfits (x_act e) (calib (act_at fn l b) (kl_units l) T data);
  le_hidden : node_good (le_out e) (q_hidden q) /\ nfits (le_out e) (calib (hidden_at fn l b) (kl_units l) T data);
  le_handed : le_data e = reference_result l (length data) (reference fn l b T data) }.

Lemma lt4 (P : nat -> Prop) : P 0%nat -> P 1%nat -> P 2%nat -> P 3%nat -> forall g, (g < 4)%nat -> P g.
Proof. intros A B C D [|[|[|[|g]]]] H; try assumption. lia. Qed.

Lemma export_ok fn dt q l b T data input : lstm_shaped l b T data -> good_ldt dt q ->
  exists e, klstm_quantize fn dt l input T data = Ok e /\ lstm_exported fn q l b T data input e.
Proof.
  intros Sh [Gp Gk Gu Gh Gc Gr Gb Gact Gpos Gsym]. pose proof Sh as [Su Sf ST Sd Sb Sbl SK SUl SU Stm Srw].
  apply short_narrow in Gk, Gu, Gh, Gr. pose proof (short_narrow _ Gc) as Nc.
  set (n := kl_units l) in *. set (rec := reference fn l b T data).
  assert (UNE : kl_U l <> []) by (intros E; rewrite E in SUl; cbn in SUl; lia).
  assert (GK : forall g, (g < 4)%nat -> exists nd, gate_kernel (q_kernel q) n g (kl_K l) = Ok nd /\ weights_ok nd (q_kernel q) n g (kl_K l))
    by (intros g Hg; apply gate_kernel_ok; assumption).
  assert (GU : forall g, (g < 4)%nat -> exists nd, gate_kernel (q_rec q) n g (kl_U l) = Ok nd /\ weights_ok nd (q_rec q) n g (kl_U l))
    by (intros g Hg; apply gate_kernel_ok; assumption).
  destruct (GK 0%nat ltac:(lia)) as (k0 & EK0 & WK0), (GK 1%nat ltac:(lia)) as (k1 & EK1 & WK1),
    (GK 2%nat ltac:(lia)) as (k2 & EK2 & WK2), (GK 3%nat ltac:(lia)) as (k3 & EK3 & WK3).
  destruct (GU 0%nat ltac:(lia)) as (u0 & EU0 & WU0), (GU 1%nat ltac:(lia)) as (u1 & EU1 & WU1),
    (GU 2%nat ltac:(lia)) as (u2 & EU2 & WU2), (GU 3%nat ltac:(lia)) as (u3 & EU3 & WU3). clear GK GU.
  (* hidden *)
  pose proof (incl_hidden fn l b T data Sh) as IH. fold rec n in IH.
  assert (NH : concat (concat (map (map fs_h) rec)) <> []) by (eapply incl_ne; [exact IH|apply (calib_ne l b T data Sh _ T ST)]).
  destruct (scale_zp_ok _ _ Gh NH) as (hs & hz & EH & H1). destruct (H1 [] None) as [HG HF]. clear H1.
  (* pre-activations *)
  assert (GR : forall g, (g < 4)%nat -> exists r, gate_rec_add (q_rec_add q) n g rec = Ok r /\ node_good r (q_rec_add q) /\
     nfits r (calib (fun xs t j => pre_at fn l b xs t g j) n T data)).
  { intros g Hg. pose proof (incl_pre fn l b T data Sh g Hg) as I. fold rec n in I.
    assert (NP : pre_part n g rec <> []) by (eapply incl_ne; [exact I|apply (calib_ne l b T data Sh _ T ST)]).
    destruct (scale_zp_ok _ _ Gr NP) as (s & z & E & H). destruct (H [] None) as [A B].
    eexists. unfold gate_rec_add. rewrite E. cbn [rbind fst snd]. split; [reflexivity|]. split; [exact A|]. eapply nfits_incl; eassumption. }
  destruct (GR 0%nat ltac:(lia)) as (r0 & ER0 & R0), (GR 1%nat ltac:(lia)) as (r1 & ER1 & R1),
    (GR 2%nat ltac:(lia)) as (r2 & ER2 & R2), (GR 3%nat ltac:(lia)) as (r3 & ER3 & R3). clear GR.
  (* cell state *)
  pose proof (incl_cell fn l b T data Sh) as IC. fold rec n in IC.
  assert (NC : concat (concat (map (map fs_c) rec)) <> []) by (eapply incl_ne; [exact IC|apply (calib_ne l b T data Sh _ T ST)]).
  destruct (sym_ok _ (q_cell q) Nc Gpos Gsym NC) as (cs & EC & CP & CF).
  set (c := plain_node cs 0 (q_cell q)).
  assert (EC' : cell_state_node (q_cell q) rec = Ok c) by (unfold cell_state_node; rewrite EC; reflexivity).
  (* activations *)
  assert (PNE : forall g, (g < 4)%nat -> pre_part n g rec <> []).
  { intros g Hg. eapply incl_ne; [apply (incl_pre fn l b T data Sh g Hg)|apply (calib_ne l b T data Sh _ T ST)]. }
  assert (INE : input_gate_data n rec <> []).
  { eapply incl_ne; [apply (incl_in_pre fn l b T data Sh 0 ltac:(lia))|apply (calib_ne l b T data Sh)]. fold n. lia. }
  assert (ONE : output_gate_data n rec <> []).
  { eapply incl_ne; [apply (incl_out_pre fn l b T data Sh)|apply (calib_ne l b T data Sh _ T ST)]. }
  assert (Na : narrow (q_act q)) by (rewrite Gact; exact Gr).
  destruct (act_pair_ok (fn_sig fn) (input_gate_data n rec) (q_act q) r0 Na INE) as (a0 & o0 & EA0 & OG0 & OF0 & T0 & _).
  destruct (act_pair_ok (fn_sig fn) (pre_part n 1 rec) (q_act q) r1 Na (PNE 1%nat ltac:(lia))) as (a1 & o1 & EA1 & OG1 & OF1 & T1 & _).
  destruct (act_pair_ok (fn_tanh fn) (pre_part n 2 rec) (q_act q) r2 Na (PNE 2%nat ltac:(lia))) as (a2 & o2 & EA2 & OG2 & OF2 & T2 & _).
  destruct (act_pair_ok (fn_sig fn) (output_gate_data n rec) (q_act q) r3 Na ONE) as (a3 & o3 & EA3 & OG3 & OF3 & T3 & _).
  destruct (act_pair_ok (fn_tanh fn) (concat (concat (map (map fs_c) rec))) (q_cell q) c Nc NC) as (a4 & o4 & EA4 & OG4 & OF4 & T4 & _).
  eexists. split.
  - unfold klstm_quantize. rewrite Sb, Gp. cbn [rbind]. fold n rec. assert ((T =? 0)%nat = false) as -> by (apply Nat.eqb_neq; lia).
    rewrite EK0, EK1, EK2, EK3, EU0, EU1, EU2, EU3. cbn [rbind]. unfold hidden_state_node. rewrite EH. cbn [rbind fst snd].
    rewrite ER0, ER1, ER2, ER3. cbn [rbind]. rewrite EC'. cbn [rbind]. rewrite EA0, EA1, EA2, EA3, EA4. cbn [rbind fst snd]. reflexivity.
  - constructor; cbn [le_ins le_out le_data].
    + reflexivity.
    + reflexivity.
    + apply lt4; assumption.
    + apply lt4; assumption.
    + apply lt4; reflexivity.
    + apply lt4; assumption.
    + apply lt4; [rewrite <- (ng_dtype _ _ (proj1 R0))|rewrite <- (ng_dtype _ _ (proj1 R1))|rewrite <- (ng_dtype _ _ (proj1 R2))|rewrite <- (ng_dtype _ _ (proj1 R3))]; assumption.
    + apply lt4; (split; [assumption|]).
      * refine (nfits_incl _ _ _ _ OF0). unfold gate_calib. cbn [Nat.eqb]. fold n. intros v Hv. apply in_flat_map in Hv as (g & Hg & Hv).
        apply in_seq in Hg. rewrite <- calib_map in Hv. revert v Hv. apply incl_map_mono. apply (incl_in_pre fn l b T data Sh g). lia.
      * refine (nfits_incl _ _ _ _ OF1). unfold gate_calib. cbn [Nat.eqb]. fold n. unfold gate_at, gate_fn. cbn [Nat.eqb].
        rewrite <- calib_map. apply incl_map_mono. apply (incl_pre fn l b T data Sh 1). lia.
      * refine (nfits_incl _ _ _ _ OF2). unfold gate_calib. cbn [Nat.eqb]. fold n. unfold gate_at, gate_fn. cbn [Nat.eqb].
        rewrite <- calib_map. apply incl_map_mono. apply (incl_pre fn l b T data Sh 2). lia.
      * refine (nfits_incl _ _ _ _ OF3). unfold gate_calib. cbn [Nat.eqb]. fold n. unfold gate_at, gate_fn. cbn [Nat.eqb].
        rewrite <- calib_map. apply incl_map_mono. apply (incl_out_pre fn l b T data Sh).
    + split; [|reflexivity]. constructor; [reflexivity|exact CP|]. exists 0. split; [reflexivity|]. unfold in_dtype. lia.
    + intros v Hv. apply CF. eapply hull_incl; eassumption.
    + exact T4.
    + split; [exact OG4|]. refine (nfits_incl _ _ _ _ OF4). unfold act_at. rewrite <- calib_map. apply incl_map_mono. exact IC.
    + split; [exact HG|]. eapply nfits_incl; [exact IH|exact HF].
    + reflexivity.
Qed.
