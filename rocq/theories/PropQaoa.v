(** Property C77: the QAOA front end formulates the same problem as the annealers. *)
From Coq Require Import Permutation.
From Verif Require Import Base BaseProofs QuboModel SpecQubo QuboProofs QuboEnergy QuboMore PropQubo QuboDeployModel.
Open Scope Q_scope.
Open Scope list_scope.

Lemma NoDup_fst {A B} (l : list (A * B)) : NoDup (map fst l) -> NoDup l.
Proof. induction l as [|a l IH]; cbn; intros H; [constructor|]. inversion_clear H as [|? ? X Y]. constructor; [|auto]. intros Z. apply X. now apply in_map. Qed.
Lemma energy_perm D E x : Permutation D E -> energy D x == energy E x.
Proof. unfold energy. induction 1; cbn [map sumQ fold_right]; [reflexivity|now rewrite IHPermutation|ring|now rewrite IHPermutation1]. Qed.

Definition cell (D : dict) (i j : nat) : dict := match dget (i, j) D with Some v => [((i, j), v)] | None => [] end.
Definition grid (D : dict) (k : nat) : dict := flat_map (fun i => flat_map (cell D i) (seq 0 k)) (seq 0 k).
Lemma grid_in D k p : NoDup (keys D) -> In p (grid D k) <-> In p D /\ (fst (fst p) < k)%nat /\ (snd (fst p) < k)%nat.
Proof.
  intros ND. unfold grid. rewrite in_flat_map. split.
  - intros (i & Hi & H). apply in_flat_map in H as (j & Hj & H). apply in_seq in Hi, Hj. unfold cell in H.
    destruct (dget (i, j) D) as [v|] eqn:E; [|destruct H]. destruct H as [<- | []]. apply dget_some_in in E. cbn. split; [exact E|lia].
  - destruct p as [[i j] v]. cbn [fst snd]. intros (H & Hi & Hj). exists i. split; [apply in_seq; lia|]. apply in_flat_map. exists j. split; [apply in_seq; lia|].
    unfold cell. rewrite (dget_in _ v D ND H). now left.
Qed.
Lemma grid_nodup D k : NoDup (keys (grid D k)).
Proof.
  unfold grid. rewrite keys_flat_map by exact (Build_inst 0 0 0 (fun _ _ => 0) (fun _ _ => 0) (fun _ => 0) (fun _ _ => 0) 0 0 0).
  apply NoDup_flat_map; try exact (Build_inst 0 0 0 (fun _ _ => 0) (fun _ _ => 0) (fun _ => 0) (fun _ _ => 0) 0 0 0); [apply seq_NoDup| |].
  - intros i _. rewrite keys_flat_map by exact (Build_inst 0 0 0 (fun _ _ => 0) (fun _ _ => 0) (fun _ => 0) (fun _ _ => 0) 0 0 0).
    apply NoDup_flat_map; try exact (Build_inst 0 0 0 (fun _ _ => 0) (fun _ _ => 0) (fun _ => 0) (fun _ _ => 0) 0 0 0); [apply seq_NoDup| |].
    + intros j _. unfold cell. destruct (dget (i, j) D); cbn; repeat constructor; intuition.
    + intros a b p _ _ Ha Hb. unfold cell in *. destruct (dget (i, a) D); [|destruct Ha]. destruct (dget (i, b) D); [|destruct Hb].
      destruct Ha as [<- | []], Hb as [X | []]. cbn in X. congruence.
  - intros a b p _ _ Ha Hb. apply in_map_iff in Ha as (p1 & <- & Ha), Hb as (p2 & E & Hb).
    apply in_flat_map in Ha as (j1 & _ & Ha), Hb as (j2 & _ & Hb). unfold cell in *.
    destruct (dget (a, j1) D); [|destruct Ha]. destruct (dget (b, j2) D); [|destruct Hb].
    destruct Ha as [<- | []], Hb as [<- | []]. cbn in E. congruence.
Qed.
Lemma primado_grid D mx : primado D mx = grid D (mx + 1).
Proof.
  unfold primado. erewrite (for_range_dict (mx + 1) _ (fun i => flat_map (cell D i) (seq 0 (mx + 1)))).
  - change (flat_map (fun i => flat_map (cell D i) (seq 0 (mx + 1))) (seq 0 (mx + 1))) with (grid D (mx + 1)).
    apply dupdate_fresh. cbn [app keys map]. apply grid_nodup.
  - intros i P. apply (for_range_dict (mx + 1) _ (cell D i)). intros j P'. unfold cell. destruct (dget (i, j) D); reflexivity.
Qed.
Lemma primado_perm D mx : NoDup (keys D) -> (forall k, In k (keys D) -> (fst k <= mx)%nat /\ (snd k <= mx)%nat) -> Permutation (primado D mx) D.
Proof.
  intros ND B. rewrite primado_grid. apply NoDup_Permutation; [apply NoDup_fst, grid_nodup|now apply NoDup_fst|].
  intros p. rewrite (grid_in D (mx + 1) p ND). split; [tauto|]. intros H. split; [exact H|]. destruct (B (fst p)); [now apply in_map|]. lia.
Qed.

Lemma max_index_spec D b : (forall k, In k (keys D) -> (fst k <= b)%nat /\ (snd k <= b)%nat) -> In (b, b) (keys D) -> max_index D = Ok b.
Proof.
  intros LE HI. destruct D as [|p D]; [destruct HI|]. cbn [max_index]. f_equal.
  assert (UP : forall E a, (a <= b)%nat -> (forall k, In k (keys E) -> (fst k <= b)%nat /\ (snd k <= b)%nat) ->
    (fold_left (fun m (q : key * Q) => Nat.max m (Nat.max (fst (fst q)) (snd (fst q)))) E a <= b)%nat).
  { induction E as [|q E IH]; intros a Ha H; cbn [fold_left]; [exact Ha|]. apply IH; [|intros k K; apply H; now right]. destruct (H (fst q) (or_introl eq_refl)). lia. }
  assert (MO : forall E a, (a <= fold_left (fun m (q : key * Q) => Nat.max m (Nat.max (fst (fst q)) (snd (fst q)))) E a)%nat).
  { induction E as [|q E IH]; intros a; cbn [fold_left]; [lia|]. eapply Nat.le_trans; [|apply IH]. lia. }
  assert (LO : forall E a, In (b, b) (keys E) -> (b <= fold_left (fun m (q : key * Q) => Nat.max m (Nat.max (fst (fst q)) (snd (fst q)))) E a)%nat).
  { induction E as [|q E IH]; intros a H; [destruct H|]. cbn [fold_left]. destruct H as [H|H]; [|now apply IH].
    eapply Nat.le_trans; [|apply MO]. rewrite H. cbn [fst snd]. lia. }
  apply Nat.le_antisymm.
  - apply UP; [|intros k K; apply LE; now right]. destruct (LE (fst p) (or_introl eq_refl)). lia.
  - destruct HI as [H|H]; [|now apply LO]. eapply Nat.le_trans; [|apply MO]. rewrite H. cbn [fst snd]. lia.
Qed.

(** declaring the variables of a filtered increasing sequence *)
Lemma declare_fresh vs i : ~ In i vs -> declare vs i = Ok (vs ++ [i]).
Proof. intros H. unfold declare. destruct (existsb (Nat.eqb i) vs) eqn:E; [|reflexivity]. apply existsb_eqb_in in E. contradiction. Qed.
Lemma declare_seq (D : dict) : forall k a vs, (forall v, In v vs -> (v < a)%nat) ->
  fold_left (fun acc i => do vs <- acc; if inD D (i, i) then declare vs i else Ok vs) (seq a k) (Ok vs) = Ok (vs ++ filter (fun i => inD D (i, i)) (seq a k)).
Proof.
  induction k as [|k IH]; intros a vs H; cbn [seq fold_left filter]; [now rewrite app_nil_r|]. cbn [rbind].
  destruct (inD D (a, a)) eqn:E.
  - rewrite declare_fresh by (intros X; apply H in X; lia). rewrite IH; [now rewrite <- app_assoc|]. intros v V. apply in_app_or in V as [V|[<- | []]]; [apply H in V; lia|lia].
  - apply IH. intros v V. apply H in V. lia.
Qed.
Lemma filter_block (p : nat -> bool) a b c : (forall i, (1 <= i < c)%nat -> p i = ((a <=? i) && (i <? a + b))%nat) -> (1 <= a)%nat -> (a + b <= c)%nat ->
  filter p (seq 1 (c - 1)) = seq a b.
Proof.
  intros H A C. replace (c - 1)%nat with ((a - 1) + (b + (c - (a + b))))%nat by lia. rewrite !seq_app, !filter_app.
  replace (1 + (a - 1))%nat with a by lia.
  assert (F : forall l, (forall i, In i l -> p i = false) -> filter p l = []).
  { induction l as [|x l IH]; intros G; cbn; [reflexivity|]. rewrite (G x) by now left. apply IH. intros; apply G; now right. }
  rewrite (F (seq 1 (a - 1))), (F (seq (a + b) (c - (a + b)))).
  - cbn. rewrite app_nil_r. assert (T : forall l, (forall i, In i l -> p i = true) -> filter p l = l).
    { induction l as [|x l IH]; intros G; cbn; [reflexivity|]. rewrite (G x) by now left. f_equal. apply IH. intros; apply G; now right. }
    apply T. intros i Hi. apply in_seq in Hi. rewrite H by lia. apply andb_true_iff. split; [apply Nat.leb_le; lia|apply Nat.ltb_lt; lia].
  - intros i Hi. apply in_seq in Hi. rewrite H by lia. apply andb_false_iff. right. apply Nat.ltb_ge. lia.
  - intros i Hi. apply in_seq in Hi. rewrite H by lia. apply andb_false_iff. left. apply Nat.leb_gt. lia.
Qed.
Lemma inD_in D k : inD D k = true <-> In k (keys D).
Proof.
  unfold inD. split.
  - destruct (dget k D) eqn:E; [|discriminate]. intros _. apply dget_some_in in E. apply (in_map fst) in E. exact E.
  - intros H. destruct (dget k D) eqn:E; [reflexivity|]. exfalso.
    revert H E. induction D as [|[k' v'] D IH]; cbn; [tauto|]. intros [-> | H]; [rewrite keqb_refl; discriminate|]. destruct (keqb k k'); [discriminate|auto].
Qed.

(** The quadratic program built for a neuron: one binary variable per kernel weight in order, then the bias, and an
    objective with the same value as the annealers' energy at every assignment. *)
Theorem C77_program : forall I l, wf_inst I -> (l < iOut I)%nat ->
  exists D p, dict_free I l = Ok D /\ qaoa_program D = Ok p /\
    qp_vars p = map (fun i => l * iIn I + i + 1)%nat (seq 0 (iIn I)) ++ [(iIn I * iOut I + 1 + l)%nat] /\
    qp_vars p = variables D /\
    forall x, energy (qp_obj p) x == energy D x.
Proof.
  intros I l WF Hl. set (D := canon I l).
  assert (DF : dict_free I l = Ok D) by (rewrite dict_free_eq by exact Hl; f_equal; now apply dict_class_eq).
  set (n := iIn I). set (b := bvar I l).
  assert (KV : forall i, (i < n)%nat -> (1 <= kvar I l i < b)%nat).
  { intros i Hi. pose proof (kv_lt I l i Hl Hi). unfold b, bvar, kvar in *. lia. }
  assert (LE : forall k, In k (keys D) -> (1 <= fst k <= b)%nat /\ (1 <= snd k <= b)%nat).
  { intros k K. assert (B1 : (1 <= b)%nat) by (unfold b, bvar; lia).
    apply (in_canon_key I l k Hl) in K as [(i & Hi & ->)|[(i & j & Hi & Hj & _ & ->)|[-> |(i & Hi & [-> | ->])]]]; cbn [fst snd]; fold b;
      repeat match goal with H : (_ < iIn I)%nat |- _ => apply KV in H end; lia. }
  assert (KK : forall i, (i < n)%nat -> In (kvar I l i, kvar I l i) (keys D)).
  { intros i Hi. unfold D, canon. rewrite keys_app. apply in_or_app. left. unfold e1. rewrite keys_flat_map by exact I. apply in_flat_map. exists i. split; [apply in_seq; unfold n in *; lia|now left]. }
  assert (BB : In (b, b) (keys D)).
  { unfold D, canon. rewrite !keys_app. apply in_or_app. right. apply in_or_app. right. apply in_or_app. left. now left. }
  assert (DG : forall i, (1 <= i < b)%nat -> inD D (i, i) = ((l * n + 1 <=? i) && (i <? l * n + 1 + n))%nat).
  { intros i Hi. destruct ((l * n + 1 <=? i) && (i <? l * n + 1 + n))%nat eqn:E.
    - apply andb_true_iff in E as (E1 & E2). apply Nat.leb_le in E1. apply Nat.ltb_lt in E2. apply inD_in.
      replace i with (kvar I l (i - l * n - 1)) by (unfold kvar; fold n; lia). apply KK. lia.
    - destruct (inD D (i, i)) eqn:F; [|reflexivity]. apply inD_in in F. exfalso.
      apply (in_canon_key I l _ Hl) in F as [(j & Hj & X)|[(j & k & Hj & Hk & NE & X)|[X|(j & Hj & [X|X])]]]; injection X as X1 X2.
      + rewrite X1 in E. unfold kvar in E. fold n in E, Hj. apply andb_false_iff in E as [E|E]; [apply Nat.leb_gt in E|apply Nat.ltb_ge in E]; lia.
      + rewrite X1 in X2. unfold kvar in X2. lia.
      + unfold b in Hi. lia.
      + fold n in Hj. apply KV in Hj. fold b in X2. lia.
      + fold n in Hj. apply KV in Hj. fold b in X1. lia. }
  assert (BND : (l * n + 1 + n <= b)%nat) by (unfold b, bvar; fold n; nia).
  set (vs := seq (l * n + 1) n ++ [b]).
  assert (VS : vs = map (fun i => l * n + i + 1)%nat (seq 0 n) ++ [(n * iOut I + 1 + l)%nat]).
  { unfold vs. f_equal. transitivity (map (fun i => (l * n + 1 + i)%nat) (seq 0 n)).
    - clear. generalize (l * n + 1)%nat as a. intros a. induction n as [|k IH] using nat_ind; [reflexivity|].
      rewrite !seq_S, map_app, IH. reflexivity.
    - apply map_ext. intros; lia. }
  assert (PM := primado_perm D b (nodup_canon I l Hl) (fun k K => conj (proj2 (proj1 (LE k K))) (proj2 (proj2 (LE k K))))).
  exists D, (mkqp vs (primado D b)). split; [exact DF|].
  assert (QP : qaoa_program D = Ok (mkqp vs (primado D b))).
  { unfold qaoa_program. rewrite (max_index_spec D b); [|intros k K; specialize (LE k K); lia|exact BB]. cbn [rbind].
    rewrite declare_seq by (intros v []). cbn [app rbind]. rewrite (filter_block _ (l * n + 1) n b DG) by lia.
    rewrite declare_fresh by (intros X; apply in_seq in X; lia). cbn [rbind]. fold vs.
    assert (FA : forallb (fun q => existsb (Nat.eqb (fst (fst q))) vs && existsb (Nat.eqb (snd (fst q))) vs) (primado D b) = true).
    { apply forallb_forall. intros q Hq. apply (Permutation_in _ PM) in Hq. apply (in_map fst) in Hq.
      assert (KVI : forall i, (i < n)%nat -> existsb (Nat.eqb (kvar I l i)) vs = true) by (intros i Hi; apply existsb_eqb_in; unfold vs; apply in_or_app; left; apply in_seq; unfold kvar; fold n; lia).
      assert (BVI : existsb (Nat.eqb b) vs = true) by (apply existsb_eqb_in; unfold vs; apply in_or_app; right; now left).
      apply (in_canon_key I l (fst q) Hl) in Hq as [(i & Hi & ->)|[(i & j & Hi & Hj & _ & ->)|[-> |(i & Hi & [-> | ->])]]]; cbn [fst snd]; fold b; rewrite ?BVI, ?KVI by assumption; reflexivity. }
    rewrite FA. reflexivity. }
  split; [exact QP|]. cbn [qp_vars qp_obj]. split; [exact VS|]. split.
  - rewrite (C42_variable_order I l D WF Hl DF). exact VS.
  - intros x. now apply energy_perm.
Qed.
(** Decoding the solver's answer gives the rounding directions of the kernel row, in order, and of the bias. *)
Theorem C77_decode : forall I l D x, wf_inst I -> (l < iOut I)%nat -> dict_free I l = Ok D ->
  (do row <- qaoa_solution2 D x; tensor_redondeo2 (iIn I) row) =
  Ok (map (fun i => x (l * iIn I + i + 1)%nat) (seq 0 (iIn I)), x (iIn I * iOut I + 1 + l)%nat).
Proof.
  intros I l D x WF Hl HD. destruct (C77_program I l WF Hl) as (D' & p & HD' & HP & _ & V & _). assert (D' = D) by congruence. subst D'.
  unfold qaoa_solution2. rewrite HP. cbn [rbind]. rewrite V. exact (C42_decode I l D x WF Hl HD).
Qed.
(** An exact solver of the quadratic program yields the rounding with the smallest mean squared error. *)
Theorem C77_optimum : forall I l D p x, wf_inst I -> (l < iOut I)%nat -> dict_free I l = Ok D -> qaoa_program D = Ok p ->
  (forall y, energy (qp_obj p) x <= energy (qp_obj p) y) ->
  exists row b, (do r <- qaoa_solution2 D x; tensor_redondeo2 (iIn I) r) = Ok (row, b) /\ length row = iIn I /\
    forall v c, mse I l (weight I l (fun i => nth i row false)) (biasq I l b) <= mse I l (weight I l v) (biasq I l c).
Proof.
  intros I l D p x WF Hl HD HP MIN. destruct (C77_program I l WF Hl) as (D' & p' & HD' & HP' & _ & _ & EN).
  assert (D' = D) by congruence. subst D'. assert (p' = p) by congruence. subst p'.
  assert (EM : exact_minimiser D x) by (intros y; rewrite <- !EN; apply MIN).
  destruct (C39_optimum I l D x WF Hl HD EM) as (row & b & DC & LR & OPT). exists row, b. split; [|split; [exact LR|exact OPT]].
  rewrite (C77_decode I l D x WF Hl HD). rewrite <- DC. symmetry. exact (C42_decode I l D x WF Hl HD).
Qed.
(** The first of the two QAOA functions can never answer, whatever the dictionary. *)
Theorem C77_qaoa_solution_fails : forall D, exists e, qaoa_solution D = Err e.
Proof. intros D. unfold qaoa_solution. destruct (qaoa_program D); cbn [rbind]; eauto. Qed.
Theorem C77_empty_dictionary : forall x, qaoa_solution2 [] x = Err EValueError.
Proof. reflexivity. Qed.
Example C77_example : exists p, qaoa_program (dict_class ex 1) = Ok p /\ qp_vars p = [3; 4; 6]%nat /\
  map fst (qp_obj p) = [(3, 3); (3, 6); (4, 4); (6, 3); (6, 6)]%nat /\
  Qred (energy (qp_obj p) (fun u => (u =? 3)%nat)) = 1 # 40 /\
  (do r <- qaoa_solution2 (dict_class ex 1) (fun u => (u =? 4)%nat); tensor_redondeo2 2 r) = Ok ([false; true], false).
Proof. eexists. split; [vm_compute; reflexivity|]. vm_compute. repeat split. Qed.
