(** Property C73: ScipyOptimizer. *)
From Verif Require Import Base BaseProofs DtypeModel QuantModel QuantProofs PropCore DistModel DistProofs DistClone PropDist ScipyModel.
From Coq Require Import Sorting.Sorted Qminmax Lqa.
Open Scope Z_scope.
Open Scope list_scope.

(** ** Specification *)
Definition first_edge (d : dist) : Q := hd 0%Q (d_edges d).
Definition last_edge (d : dist) : Q := last (d_edges d) 0%Q.
(** A candidate the objective really evaluates. *)
Definition feasible (d : dist) (lo hi : Q) : Prop := (1 <= hi - lo)%Q /\ (first_edge d <= lo)%Q /\ (hi <= last_edge d)%Q.
(** The noise of storing the whole distribution with scale [s] and zero point [z]: the metric between the two normalized histograms. *)
Definition stored (q : gdtype) (s : Q) (z : Z) (x : Q) : Q := dequant1 z s (quant1 q z s x).
Definition noise (q : gdtype) (f : metric) (d : dist) (s : Q) (z : Z) (v : Q) : Prop :=
  let h := hist_in (d_edges d) (map (stored q s z) (d_data d)) in
  sumZ (d_hist d) <> 0 /\ sumZ h <> 0 /\
  v = f (map (fun c => inject_Z c / inject_Z (sumZ (d_hist d)))%Q (d_hist d)) (map (fun c => inject_Z c / inject_Z (sumZ h))%Q h).
(** A minimiser that never returns a point worse than its start. *)
Definition descends (mini : minimizer) : Prop :=
  forall g x0 x v0, mini g x0 = Ok x -> g x0 = Ok v0 -> exists v, g x = Ok v /\ (v <= v0)%Q.

(** ** Proofs *)
Lemma edges_ends d w : wf d w -> py_index (d_edges d) 0 = Ok (first_edge d) /\ py_index (d_edges d) (-1) = Ok (last_edge d).
Proof.
  intros W. pose proof (wf_len _ _ W) as L. split.
  - change 0 with (Z.of_nat 0). rewrite (py_index_nth _ 0 0%Q) by lia. f_equal. unfold first_edge. now destruct (d_edges d).
  - unfold py_index. cbv zeta. change (-1 <? 0) with true. cbv iota. rewrite L.
    replace (-1 + Z.of_nat (S (nbins d))) with (Z.of_nat (nbins d)) by lia.
    destruct (Z.ltb_spec (Z.of_nat (nbins d)) 0); [lia|]. cbn [orb]. destruct (Z.leb_spec (Z.of_nat (S (nbins d))) (Z.of_nat (nbins d))); [lia|].
    rewrite Nat2Z.id. unfold last_edge. rewrite (wf_last_edge d w W). unfold edge. destruct (nth_error (d_edges d) (nbins d)) as [e|] eqn:E.
    + now rewrite (nth_error_nth _ _ _ E).
    + apply nth_error_None in E. lia.
Qed.
Lemma objective_cases q f d w lo hi : wf d w ->
  minimize_noise q f d (lo, hi) =
  if Qltb (hi - lo) 1 || Qltb lo (first_edge d) || Qltb (last_edge d) hi then Ok penalty
  else do t <- dist_slice d (Some lo) (Some hi); do sz <- dist_quantize t int8 None None false;
    let '(s, zp) := sz in
    do p <- normalize (d_hist d); do p' <- normalize (hist_in (d_edges d) (map (stored q s zp) (d_data d))); Ok (f p p').
Proof. intros W. unfold minimize_noise. destruct (edges_ends d w W) as (-> & ->). cbn [rbind]. reflexivity. Qed.
Lemma feasible_bool d lo hi : feasible d lo hi <-> Qltb (hi - lo) 1 || Qltb lo (first_edge d) || Qltb (last_edge d) hi = false.
Proof. unfold feasible. rewrite !orb_false_iff, !Qltb_ge. tauto. Qed.
(** The objective of a candidate: the fixed penalty unless it spans at least 1 inside the histogram; otherwise the noise of the whole distribution stored
    with the int8 parameters of the slice. *)
Theorem C73_objective : forall q f d lo hi, reach d ->
  (~ feasible d lo hi -> minimize_noise q f d (lo, hi) = Ok 999999999%Q) /\
  (feasible d lo hi -> forall v, minimize_noise q f d (lo, hi) = Ok v <->
     exists t s z, dist_slice d (Some lo) (Some hi) = Ok t /\ dist_quantize t int8 None None false = Ok (s, z) /\ noise q f d s z v).
Proof.
  intros q f d lo hi R. destruct (reach_wf d R) as (w & W & _). rewrite (objective_cases q f d w lo hi W). split.
  - intros N. destruct (_ || _ || _) eqn:E; [reflexivity|]. exfalso. apply N. now apply feasible_bool.
  - intros F v. apply feasible_bool in F. rewrite F. split.
    + intros H. destruct (dist_slice d (Some lo) (Some hi)) as [t|]; cbn [rbind] in H; [|discriminate].
      destruct (dist_quantize t int8 None None false) as [[s z]|] eqn:Q; cbn [rbind] in H; [|discriminate].
      exists t, s, z. split; [reflexivity|]. split; [exact Q|]. unfold noise, normalize in *. cbv zeta in *.
      destruct (Z.eqb_spec (sumZ (d_hist d)) 0); cbn [rbind] in H; [discriminate|].
      destruct (Z.eqb_spec (sumZ (hist_in (d_edges d) (map (stored q s z) (d_data d)))) 0); cbn [rbind] in H; [discriminate|].
      injection H as <-. auto.
    + intros (t & s & z & -> & E & N1 & N2 & ->). cbn [rbind]. rewrite E. cbn [rbind]. unfold normalize. cbv zeta.
      destruct (Z.eqb_spec (sumZ (d_hist d)) 0); [contradiction|]. cbn [rbind].
      destruct (Z.eqb_spec (sumZ (hist_in (d_edges d) (map (stored q s z) (d_data d)))) 0); [contradiction|]. reflexivity.
Qed.
(** Data spanning less than 1 (most weight tensors): every candidate costs the same, so the search has nothing to go by. *)
Theorem C73_short_range_blind : forall q f d, reach d -> (last_edge d - first_edge d < 1)%Q ->
  forall lo hi, minimize_noise q f d (lo, hi) = Ok 999999999%Q.
Proof.
  intros q f d R H lo hi. refine (proj1 (C73_objective q f d lo hi R) _). intros (A & B & C). lra.
Qed.
(** the full slice *)
Lemma filter_true {A} (p : A -> bool) l : (forall x, In x l -> p x = true) -> filter p l = l.
Proof. induction l as [|x l IH]; intros H; cbn; [reflexivity|]. rewrite H by now left. f_equal. apply IH. intros y Hy. apply H. now right. Qed.
Lemma list_ext {A} (l l' : list A) x : length l = length l' -> (forall i, (i < length l)%nat -> nth i l x = nth i l' x) -> l = l'.
Proof. intros L H. apply (nth_ext _ _ x x); assumption. Qed.
Lemma full_slice d w : wf d w -> d_partial d = true -> (1 <= last_edge d - first_edge d)%Q ->
  dist_slice d (Some (first_edge d)) (Some (last_edge d)) = Ok d.
Proof.
  intros W P H. unfold first_edge, last_edge in *.
  assert (E0 : hd 0%Q (d_edges d) = edge d 0) by (symmetry; apply edge0_hd). assert (E1 := wf_last_edge d w W). rewrite E1, E0 in *.
  pose proof (wf_ne _ _ W) as Ne. pose proof (wf_w _ _ W) as Wp.
  destruct (slice_cases d w (edge d 0) (edge d (nbins d)) W P) as [[L SE]|[L SE]]; rewrite ?E0, ?E1; try lra.
  { exfalso. pose proof (edge_mono d w 1 (nbins d) W ltac:(lia)) as M. pose proof (edge_succ d w 0 W ltac:(lia)) as S0. lra. }
  rewrite SE. destruct (clone_wf d w (edge d 0) (edge d (nbins d)) W P) as (m & M & d' & HM & -> & N' & ED & EH & D & P' & W' & A1 & A2 & A3 & A4); try lra.
  assert (m = 0)%nat.
  { destruct (Nat.eq_dec m 0) as [|N]; [assumption|]. exfalso. destruct A1 as [|A1]; [contradiction|].
    pose proof (edge_mono d w 1 m W ltac:(lia)) as Mo. pose proof (edge_succ d w 0 W ltac:(lia)) as S0. lra. }
  assert (M = nbins d) by (destruct A3 as [A3|A3]; [exact A3|pose proof (edge_mono d w M (nbins d) W ltac:(lia)); lra]). subst m M.
  f_equal. destruct d as [dd de dh dp], d' as [dd' de' dh' dp']. cbn in *.
  assert (dp' = dp) by congruence.
  assert (dd' = dd) by (rewrite D; apply filter_true; intros x Hx; unfold in_closed; destruct (wf_in _ _ W x Hx) as (X1 & X2); apply andb_true_iff; split; apply Qle_bool_iff; assumption).
  assert (dh' = dh).
  { unfold nbins in *. cbn in *. apply (list_ext _ _ 0); [lia|]. intros i Hi. apply EH. lia. }
  assert (de' = de).
  { pose proof (wf_len _ _ W) as L1. pose proof (wf_len _ _ W') as L2. unfold nbins in *. cbn in *. apply (list_ext _ _ 0%Q); [lia|].
    intros i Hi. unfold edge in ED. cbn in ED. apply ED. lia. }
  congruence.
Qed.
(** The search starts from no trimming at all: the noise of int8 storage with the distribution's own parameters. *)
Theorem C73_start : forall q f d v, reach d -> (1 <= last_edge d - first_edge d)%Q ->
  minimize_noise q f d (first_edge d, last_edge d) = Ok v <->
  exists s z, dist_quantize d int8 None None false = Ok (s, z) /\ noise q f d s z v.
Proof.
  intros q f d v R H. destruct (reach_wf d R) as (w & W & P).
  assert (F : feasible d (first_edge d) (last_edge d)) by (unfold feasible; split; [lra|split; lra]).
  rewrite (proj2 (C73_objective q f d _ _ R) F). rewrite (full_slice d w W P H). split.
  - intros (t & s & z & E & Q & N). injection E as <-. eauto.
  - intros (s & z & Q & N). eauto 6.
Qed.
(** With a minimiser that never gets worse, the returned slice is feasible (spans at least 1 inside the histogram), no noisier than not trimming,
    keeps every sample between its bounds, and does not widen the range unless it is narrower than a bin. *)
Theorem C73_never_worse : forall q f mini d d' v0, reach d -> descends mini ->
  minimize_noise q f d (first_edge d, last_edge d) = Ok v0 -> (v0 < 999999999)%Q -> trim q f mini d = Ok d' ->
  exists lo hi v, mini (minimize_noise q f d) (first_edge d, last_edge d) = Ok (lo, hi) /\ dist_slice d (Some lo) (Some hi) = Ok d' /\
    feasible d lo hi /\ minimize_noise q f d (lo, hi) = Ok v /\ (v <= v0)%Q /\
    (forall x, In x (d_data d') -> In x (d_data d)) /\ (forall x, In x (d_data d) -> (lo <= x <= hi)%Q -> In x (d_data d')) /\
    (forall b, get_bin_size d = Ok b -> (b <= hi - lo)%Q -> no_widening d d').
Proof.
  intros q f mini d d' v0 R De E0 L T. destruct (reach_wf d R) as (w & W & P). unfold trim in T.
  destruct (edges_ends d w W) as (F1 & F2). rewrite F1, F2 in T. cbn [rbind] in T.
  destruct (mini (minimize_noise q f d) (first_edge d, last_edge d)) as [[lo hi]|] eqn:M; cbn [rbind fst snd] in T; [|discriminate].
  destruct (De _ _ _ _ M E0) as (v & V & Lv). exists lo, hi, v.
  assert (F : feasible d lo hi).
  { rewrite (objective_cases q f d w lo hi W) in V. destruct (Qltb (hi - lo) 1 || Qltb lo (first_edge d) || Qltb (last_edge d) hi) eqn:B; [|now apply feasible_bool].
    injection V as <-. unfold penalty in Lv. lra. }
  destruct F as (A & B & C). destruct (bin_size_wf d w W) as (b & Hb & Eb).
  destruct (C28_slice_contents d d' b lo hi R) as (S1 & S2 & S3 & S4); try assumption.
  - lra.
  - unfold first_edge in B. lra.
  - unfold last_edge in C. lra.
  - split; [reflexivity|]. split; [exact T|]. split; [unfold feasible; split; [exact A|split; assumption]|]. split; [exact V|]. split; [exact Lv|].
    split; [intros x Hx; now apply S1|]. split; [exact S2|]. intros b' Hb' Hl. rewrite Hb in Hb'. injection Hb' as <-. now apply S4.
Qed.
Lemma sumZ_nonneg l : Forall (fun c => 0 <= c) l -> 0 <= sumZ l.
Proof. unfold sumZ. induction 1; cbn [fold_right]; lia. Qed.
Lemma sumZ_ge l c : Forall (fun c => 0 <= c) l -> In c l -> c <= sumZ l.
Proof.
  induction 1 as [|x l H F IH]; intros I0; [contradiction|]. pose proof (sumZ_nonneg _ F) as P. unfold sumZ in *. cbn [fold_right].
  destruct I0 as [->|I0]; [lia|specialize (IH I0); lia].
Qed.
Lemma share_unit l c : Forall (fun c => 0 <= c) l -> sumZ l <> 0 -> In c l -> (0 <= inject_Z c / inject_Z (sumZ l) <= 1)%Q.
Proof.
  intros F N I0. pose proof (sumZ_ge l c F I0) as G. rewrite Forall_forall in F. specialize (F c I0).
  assert (P : (0 < inject_Z (sumZ l))%Q) by (apply (proj1 (Zlt_inj 0 _)); lia). split.
  - apply Qle_shift_div_l; [exact P|]. assert ((0 <= inject_Z c)%Q) by (apply (proj1 (Zle_inj 0 _)); lia). lra.
  - apply Qle_shift_div_r; [exact P|]. assert ((inject_Z c <= inject_Z (sumZ l))%Q) by (apply (proj1 (Zle_inj _ _)); lia). lra.
Qed.
Lemma sq_unit a b : (0 <= a <= 1)%Q -> (0 <= b <= 1)%Q -> (0 <= (a - b) * (a - b) <= 1)%Q.
Proof.
  intros A B. assert (G : forall d, (0 <= d <= 1)%Q -> (0 <= d * d <= 1)%Q).
  { intros d (D1 & D2). pose proof (Qmult_le_0_compat d d D1 D1). pose proof (Qmult_le_compat_r d 1 d D2 D1). split; lra. }
  destruct (Qlt_le_dec a b).
  - specialize (G (b - a)%Q ltac:(split; lra)). assert (E : ((a - b) * (a - b) == (b - a) * (b - a))%Q) by ring. rewrite E. exact G.
  - apply G. split; lra.
Qed.
Lemma mse_unit p q : (forall x, In x p -> (0 <= x <= 1)%Q) -> (forall x, In x q -> (0 <= x <= 1)%Q) -> p <> [] -> (0 <= mse p q <= 1)%Q.
Proof.
  intros P Q N. unfold mse.
  assert (L : (0 < inject_Z (Z.of_nat (length p)))%Q) by (apply (proj1 (Zlt_inj 0 _)); destruct p; [contradiction|cbn [length]; lia]).
  assert (S0 : forall p q, (forall x, In x p -> (0 <= x <= 1)%Q) -> (forall x, In x q -> (0 <= x <= 1)%Q) ->
    (0 <= sumQ (map (fun x => (fst x - snd x) * (fst x - snd x)) (combine p q)) <= inject_Z (Z.of_nat (length p)))%Q).
  { clear. induction p as [|a p IH]; intros q P Q.
    - split; apply Qle_refl.
    - destruct q as [|b q].
      + unfold combine, map, sumQ, fold_right. split; [lra|]. apply (proj1 (Zle_inj 0 _)). cbn [length]. lia.
      + cbn [combine map sumQ fold_right fst snd length]. rewrite Nat2Z.inj_succ. unfold Z.succ. rewrite inject_Z_plus.
        destruct (IH q (fun x H => P x (or_intror H)) (fun x H => Q x (or_intror H))) as (I1 & I2).
        destruct (sq_unit a b (P a (or_introl eq_refl)) (Q b (or_introl eq_refl))) as (J1 & J2).
        fold (sumQ (map (fun x => (fst x - snd x) * (fst x - snd x))%Q (combine p q))). change (inject_Z 1) with 1%Q. split; lra. }
  destruct (S0 p q P Q) as (A & B). split.
  - apply Qle_shift_div_l; [exact L|]. lra.
  - apply Qle_shift_div_r; [exact L|]. lra.
Qed.
Lemma hist_nonneg d w : wf d w -> Forall (fun c => 0 <= c) (d_hist d).
Proof.
  intros W. apply Forall_forall. intros c I0. destruct (In_nth _ _ 0 I0) as (i & Hi & <-).
  destruct (wf_cnt _ _ W i Hi) as [->|(_ & ->)]; unfold countb; lia.
Qed.
Lemma hist_in_nonneg e l : Forall (fun c => 0 <= c) (hist_in e l).
Proof. apply Forall_forall. intros c I0. unfold hist_in in I0. apply in_map_iff in I0. destruct I0 as (i & <- & _). lia. Qed.
(** With the mean-squared-error metric every candidate that is really evaluated costs at most 1, so it always beats the penalty. *)
Theorem C73_mse_below_penalty : forall q d lo hi v, reach d -> feasible d lo hi ->
  minimize_noise q mse d (lo, hi) = Ok v -> (0 <= v <= 1)%Q.
Proof.
  intros q d lo hi v R F E. destruct (reach_wf d R) as (w & W & _).
  apply (proj2 (C73_objective q mse d lo hi R) F) in E. destruct E as (t & s & z & _ & _ & N1 & N2 & ->). apply mse_unit.
  - intros x I0. apply in_map_iff in I0. destruct I0 as (c & <- & I0). apply share_unit; [exact (hist_nonneg d w W)|exact N1|exact I0].
  - intros x I0. apply in_map_iff in I0. destruct I0 as (c & <- & I0). apply share_unit; [apply hist_in_nonneg|exact N2|exact I0].
  - pose proof (wf_ne _ _ W) as L. unfold nbins in L. destruct (d_hist d); [cbn in L; lia|discriminate].
Qed.
Theorem C73_mse_never_worse : forall q mini d d' v0, reach d -> descends mini -> (1 <= last_edge d - first_edge d)%Q ->
  minimize_noise q mse d (first_edge d, last_edge d) = Ok v0 -> trim q mse mini d = Ok d' ->
  exists lo hi v, dist_slice d (Some lo) (Some hi) = Ok d' /\ feasible d lo hi /\ minimize_noise q mse d (lo, hi) = Ok v /\ (v <= v0)%Q.
Proof.
  intros q mini d d' v0 R De H E T. assert (F : feasible d (first_edge d) (last_edge d)) by (unfold feasible; split; [lra|split; lra]).
  destruct (C73_mse_below_penalty q d _ _ v0 R F E) as (_ & V).
  destruct (C73_never_worse q mse mini d d' v0 R De E ltac:(lra) T) as (lo & hi & v & _ & A & B & C & D & _). eauto 8.
Qed.
(** The target dtype is ignored when the scale is chosen: storing {0, 10} as uint8 with its own parameters is noiseless, but the optimizer measures
    int8 parameters (zero point -128) on the uint8 grid and sees noise 1/4. *)
Theorem C73_target_dtype_ignored_refuted :
  ~ (forall q f d v, reach d -> (1 <= last_edge d - first_edge d)%Q -> minimize_noise q f d (first_edge d, last_edge d) = Ok v ->
       exists s z, dist_quantize d q None None false = Ok (s, z) /\ noise q f d s z v).
Proof.
  intros H. destruct (mk_dist [0; 10]%Q 2 true) as [d|] eqn:E; [|vm_compute in E; discriminate].
  assert (R : reach d) by (refine (reach_new _ 2%nat d _ E); lia).
  vm_compute in E. injection E as <-.
  pose proof (H {| gmin := 0; gmax := 255; grepr := chars_of "uint8" |} (fun p q => Qred (mse p q)) _ (1#4)%Q R ltac:(vm_compute; discriminate) ltac:(vm_compute; reflexivity)) as (s & z & Q & N1 & N2 & V).
  vm_compute in Q. injection Q as <- <-. vm_compute in V. discriminate.
Qed.
(** The hypotheses are met: eleven samples over [-5, 5], trimmed by a minimiser that proposes [-5, 3] and keeps the better of that and its start. *)
Definition try_once (c : Q * Q) : minimizer := fun g x0 =>
  match g x0 with Err e => Err e | Ok v0 => match g c with Err _ => Ok x0 | Ok v => if Qle_bool v v0 then Ok c else Ok x0 end end.
Lemma try_once_descends c : descends (try_once c).
Proof.
  intros g x0 x v0 H E. unfold try_once in H. rewrite E in H. destruct (g c) as [v|] eqn:G.
  - destruct (Qle_bool v v0) eqn:L; injection H as <-; [exists v; split; [exact G|now apply Qle_bool_iff]|exists v0; split; [exact E|apply Qle_refl]].
  - injection H as <-. exists v0. split; [exact E|apply Qle_refl].
Qed.
Example C73_example : exists d, mk_dist [-5; -4; -3; -2; -1; 0; 1; 2; 3; 4; 5]%Q 10 true = Ok d /\
  (1 <= last_edge d - first_edge d)%Q /\ feasible d (-5) 3 /\
  match minimize_noise int8 mse d (first_edge d, last_edge d), minimize_noise int8 mse d (-5, 3)%Q, trim int8 mse (try_once (-5, 3)%Q) d,
        trim int8 mse (try_once (-5, 5)%Q) d with
  | Ok v0, Ok v, Ok d1, Ok d2 => Qle_bool v0 1 && Qltb v0 v && (length (d_data d1) =? 11)%nat && (length (d_data d2) =? 11)%nat
  | _, _, _, _ => false end = true.
Proof. eexists. split; [vm_compute; reflexivity|]. split; [vm_compute; discriminate|]. split; [unfold feasible; split; [|split]; vm_compute; discriminate|]. vm_compute. reflexivity. Qed.
