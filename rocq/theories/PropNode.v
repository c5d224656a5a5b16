(** C30-C33: quantization nodes of the exported network. *)
From Verif Require Import Base BaseProofs DtypeModel QuantModel QuantProofs PropCore NodeModel.
From Coq Require Import Lqa.
Open Scope Z_scope.
Open Scope list_scope.

(** ** Specification *)
(** the code a tensor entry must have *)
Definition code_of (q : gdtype) (x s : Q) (z : Z) (p : Q) : Z := clamp (gmin q) (gmax q) (Qfloor (real_code x s z + p)).
(** the codes held by a node are those of its float tensor under its current scale, zero point, policy *)
Definition in_step (n : node) : Prop :=
  match n_tens n with
  | None => True
  | Some t => nd_shape (t_codes t) = nd_shape (t_fp t) /\
      forall i, valid_idx (nd_shape (t_fp t)) i = true ->
        nd_get (t_codes t) i = code_of (n_q n) (nd_get (t_fp t) i) (n_scale n) (n_zp n) (nd_get (t_policy t) i)
  end.
(** what the constructor and the setter check *)
Definition good (n : node) : Prop :=
  within_int32 (n_q n) /\
  match n_tens n with
  | None => True
  | Some t => nd_shape (t_policy t) = nd_shape (t_fp t) /\ nd_shape (t_og_policy t) = nd_shape (t_fp t)
  end.

(** ** Operations a user can apply to the nodes of a network *)
Inductive op :=
| OUpdate (i : nat) (s : Q) (z : Z)          (* update_quant_parameters(s, z) *)
| OUpdateNoRq (i : nat) (s : Q) (z : Z)      (* update_quant_parameters(s, z, requantize=False) *)
| OPolicy (i : nat) (p : nd Q)               (* node.rounding_policy = p *)
| OResetRounding (i : nat)
| OLutPolicy (i : nat) (p : nd Q)            (* node.LUT.rounding_policy = p *)
| OWithLut (i : nat) (fn : Q -> Q) (s : Q) (z : Z)
| OResetScale (i : nat)
| OResetZp (i : nat).
Definition lift (w : world) (i : nat) (r : res node) : world := match r with Ok n => upd w i n | Err _ => w end.
(** a raised exception is caught by the user; [fuel] is the recursion limit *)
Definition exec (fuel : nat) (w : world) (o : op) : world :=
  match o with
  | OUpdate i s z => match update fuel w i s z true with Ok w' => w' | Err _ => w end
  | OUpdateNoRq i s z => match update fuel w i s z false with Ok w' => w' | Err _ => w end
  | OPolicy i p => lift w i (set_policy (w i) p)
  | OResetRounding i => lift w i (reset_rounding (w i))
  | OLutPolicy i p => upd w i (set_lut (w i) (option_map (fun l => lut_set_policy l p) (n_lut (w i))))
  | OWithLut i fn s z => upd w i (with_lut (w i) fn s z)
  | OResetScale i => upd w i (reset_scale (w i))
  | OResetZp i => upd w i (reset_zp (w i))
  end.
Definition run (fuel : nat) (w : world) (os : list op) : world := fold_left (exec fuel) os w.

(** operations of the updating API (C30) *)
Definition updating (o : op) : Prop :=
  match o with OUpdateNoRq _ _ _ | OResetScale _ | OResetZp _ => False | _ => True end.

(** ** Lemmas *)
Lemma upd_same w i n : upd w i n i = n. Proof. unfold upd. now rewrite Nat.eqb_refl. Qed.
Lemma upd_other w i j n : j <> i -> upd w i n j = w j.
Proof. intros H. unfold upd. apply Nat.eqb_neq in H. now rewrite H. Qed.
Lemma upd_cases w i j n : (j = i /\ upd w i n j = n) \/ (j <> i /\ upd w i n j = w j).
Proof. destruct (Nat.eq_dec j i) as [-> | H]; [left|right]; split; auto using upd_same, upd_other. Qed.

Lemma quant1p_code q x s z p : within_int32 q -> quant1p q z s x p = code_of q x s z p.
Proof.
  intros H. unfold quant1p, code_of. rewrite q_round_clip by exact H. rewrite clamp_clip by apply H. f_equal.
  apply Qfloor_comp. unfold real_code. lra.
Qed.
Lemma quantize_in_step q fp z s p : within_int32 q -> nd_shape p = nd_shape fp ->
  nd_shape (quantize q fp z s (Some p)) = nd_shape fp /\
  forall i, valid_idx (nd_shape fp) i = true -> nd_get (quantize q fp z s (Some p)) i = code_of q (nd_get fp i) s z (nd_get p i).
Proof.
  intros H E. split; [now apply quantize_shape_same|]. intros i V. rewrite quantize_policy_same by assumption.
  now apply quant1p_code.
Qed.

Lemma with_tensor_ok n fp : within_int32 (n_q n) -> good (with_tensor n fp) /\ in_step (with_tensor n fp).
Proof.
  intros H. split; [split; [exact H|split; reflexivity]|]. cbn. split; [reflexivity|]. intros i V.
  change (quantize (n_q n) fp (n_zp n) (n_scale n) None) with (quantize (n_q n) fp (n_zp n) (n_scale n) None).
  pose proof (C05_base_policy_is_nearest (n_q n) fp (n_zp n) (n_scale n) i H V) as E.
  rewrite quantize_policy_same in E by (reflexivity || exact V).
  etransitivity; [symmetry; exact E|]. apply quant1p_code, H.
Qed.
Lemma requantize_ok n : good n -> good (requantize n) /\ in_step (requantize n).
Proof.
  intros [H G]. unfold requantize. destruct (n_tens n) as [t|] eqn:T; cbn [option_map].
  - split; [split; [exact H|exact G]|]. cbn. apply quantize_in_step; [exact H|apply G].
  - split; [split; [exact H|exact I]|exact I].
Qed.
Lemma set_params_good n s z : good n -> good (set_params n s z).
Proof. intros G. exact G. Qed.
Lemma shape_eqb_eq a b : shape_eqb a b = true -> a = b.
Proof. unfold shape_eqb. destruct (list_eq_dec _ _ _); congruence. Qed.
Lemma set_policy_ok n p n' : good n -> set_policy n p = Ok n' -> good n' /\ in_step n'.
Proof.
  intros [H G] E. unfold set_policy in E. destruct (n_tens n) as [t|] eqn:T; [|discriminate].
  destruct (shape_eqb _ _) eqn:S1; [|discriminate]. apply shape_eqb_eq in S1.
  match type of E with Ok ?m = _ => assert (n' = m) by congruence end. subst n'.
  split; [split; [exact H|split; [exact S1|apply G]]|]. cbn. now apply quantize_in_step.
Qed.

Lemma update_all fuel : forall (P : node -> Prop) w i s z rq w',
  (forall n s z, P n -> P (requantize (set_params n s z))) -> (rq = true \/ (forall n s z, P n -> P (set_params n s z))) ->
  (forall j, P (w j)) -> update fuel w i s z rq = Ok w' -> forall j, P (w' j).
Proof.
  induction fuel as [|f IH]; intros P w i s z rq w' HR HS HP E; [discriminate|]. cbn [update] in E.
  set (n := if rq then requantize (set_params (w i) s z) else set_params (w i) s z) in E.
  assert (PN : P n). { unfold n. destruct rq; [apply HR, HP|]. destruct HS as [HS|HS]; [discriminate|apply HS, HP]. }
  assert (P1 : forall j, P (upd w i n j)). { intros j. destruct (upd_cases w i j n) as [[_ ->]|[_ ->]]; [exact PN|apply HP]. }
  revert E P1. generalize (upd w i n) as w1. generalize (n_hooks n) as hs. clear - IH HR.
  induction hs as [|h hs IHh]; intros w1 E P1; cbn [fold_left] in E.
  - assert (w1 = w') by congruence. now subst.
  - cbn [rbind] in E. destruct (update f w1 _ _ _ true) as [w2|e] eqn:U.
    + apply (IHh w2); [exact E|]. exact (IH P w1 _ _ _ true w2 HR (or_introl eq_refl) P1 U).
    + exfalso. clear -E. induction hs as [|h hs IH]; [discriminate|]. cbn [fold_left rbind] in E. auto.
Qed.

Lemma exec_good fuel w o : (forall j, good (w j)) -> forall j, good (exec fuel w o j).
Proof.
  intros G j. destruct o; cbn [exec].
  - destruct (update fuel w i s z true) as [w'|] eqn:U; [|apply G]. revert j.
    apply (update_all fuel good w i s z true w'); auto using set_params_good. intros n s0 z0 Hn. apply requantize_ok, Hn.
  - destruct (update fuel w i s z false) as [w'|] eqn:U; [|apply G]. revert j.
    apply (update_all fuel good w i s z false w'); auto using set_params_good. intros n s0 z0 Hn. apply requantize_ok, Hn.
  - destruct (set_policy (w i) p) as [n|] eqn:E; cbn [lift]; [|apply G]. apply set_policy_ok in E; [|apply G].
    destruct (upd_cases w i j n) as [[_ ->]|[_ ->]]; [apply E|apply G].
  - unfold reset_rounding. destruct (n_tens (w i)) as [t|] eqn:T; cbn [lift]; [|apply G].
    destruct (set_policy (w i) (t_og_policy t)) as [n|] eqn:E; cbn [lift]; [|apply G]. apply set_policy_ok in E; [|apply G].
    destruct (upd_cases w i j n) as [[_ ->]|[_ ->]]; [apply E|apply G].
  - match goal with |- good (upd _ _ ?n _) => destruct (upd_cases w i j n) as [[_ ->]|[_ ->]] end; [exact (G i)|apply G].
  - match goal with |- good (upd _ _ ?n _) => destruct (upd_cases w i j n) as [[_ ->]|[_ ->]] end; [exact (G i)|apply G].
  - match goal with |- good (upd _ _ ?n _) => destruct (upd_cases w i j n) as [[_ ->]|[_ ->]] end; [exact (G i)|apply G].
  - match goal with |- good (upd _ _ ?n _) => destruct (upd_cases w i j n) as [[_ ->]|[_ ->]] end; [exact (G i)|apply G].
Qed.

(** ** C30 *)
(** A tensor node is in step when created... *)
Theorem C30_created_in_step : forall n fp, within_int32 (n_q n) -> good (with_tensor n fp) /\ in_step (with_tensor n fp).
Proof. exact with_tensor_ok. Qed.
(** ... and after every history of the updating API, whatever the hooks between the nodes. *)
Theorem C30_in_step : forall fuel os w, (forall j, good (w j) /\ in_step (w j)) -> Forall updating os ->
  forall j, good (run fuel w os j) /\ in_step (run fuel w os j).
Proof.
  intros fuel os. induction os as [|o os IH]; intros w H F; [exact H|]. inversion F as [|? ? U F']; subst.
  cbn [run fold_left]. apply IH; [|exact F']. clear IH F F' os. intros j.
  split; [apply exec_good; intros; apply H|].
  destruct o; cbn [exec updating] in *; try (destruct U); try (apply H).
  - destruct (update fuel w i s z true) as [w'|] eqn:E; [|apply H].
    apply (update_all fuel (fun n => good n /\ in_step n) w i s z true w'); auto.
    intros n s0 z0 [Gn _]. apply requantize_ok, Gn.
  - destruct (set_policy (w i) p) as [n|] eqn:E; cbn [lift]; [|apply H]. apply set_policy_ok in E; [|apply H].
    destruct (upd_cases w i j n) as [[_ ->]|[_ ->]]; [apply E|apply H].
  - unfold reset_rounding. destruct (n_tens (w i)) as [t|] eqn:T; cbn [lift]; [|apply H].
    destruct (set_policy (w i) (t_og_policy t)) as [n|] eqn:E; cbn [lift]; [|apply H]. apply set_policy_ok in E; [|apply H].
    destruct (upd_cases w i j n) as [[_ ->]|[_ ->]]; [apply E|apply H].
  - match goal with |- in_step (upd _ _ ?n _) => destruct (upd_cases w i j n) as [[_ ->]|[_ ->]] end; [exact (proj2 (H i))|apply H].
  - match goal with |- in_step (upd _ _ ?n _) => destruct (upd_cases w i j n) as [[_ ->]|[_ ->]] end; [exact (proj2 (H i))|apply H].
Qed.

(** Whatever happened before (also bare resets and non-requantizing updates), one requantizing update of a
    node brings it back in step, and nothing but that node and the nodes its hooks reach changes. *)
Lemma fold_update_err f hs e : fold_left (fun acc h => do w <- acc;
          update f w (h_bias h) (n_scale (w (h_kernel h)) * n_scale (w (h_input h)))%Q (n_zp (w (h_bias h))) true) hs (Err e) = Err e.
Proof. induction hs as [|h hs IH]; [reflexivity|]. exact IH. Qed.
Lemma update_in_step_kept fuel : forall w i s z w' j, (forall j, good (w j)) -> in_step (w j) -> update fuel w i s z true = Ok w' -> in_step (w' j).
Proof.
  induction fuel as [|f IH]; intros w i s z w' j G P E; [discriminate|]. cbn [update] in E.
  set (n := requantize (set_params (w i) s z)) in E.
  assert (GN : good n /\ in_step n) by (apply requantize_ok, (G i)).
  assert (G1 : forall j, good (upd w i n j)). { intros k. destruct (upd_cases w i k n) as [[_ ->]|[_ ->]]; [apply GN|apply G]. }
  assert (P1 : in_step (upd w i n j)). { destruct (upd_cases w i j n) as [[_ ->]|[_ ->]]; [apply GN|apply P]. }
  revert E G1 P1. generalize (upd w i n) as w1. generalize (n_hooks n) as hs. clear - IH.
  induction hs as [|h hs IHh]; intros w1 E G1 P1; cbn [fold_left] in E.
  - assert (w1 = w') by congruence. now subst.
  - cbn [rbind] in E. destruct (update f w1 _ _ _ true) as [w2|e] eqn:U; [|rewrite fold_update_err in E; discriminate].
    apply (IHh w2); [exact E| |exact (IH _ _ _ _ _ j G1 P1 U)].
    refine (update_all f good w1 _ _ _ true w2 _ (or_introl eq_refl) G1 U). intros n0 s0 z0 H. apply requantize_ok, H.
Qed.
Theorem C30_update_resyncs : forall fuel w os i s z w', (forall j, good (w j)) ->
  update fuel (run fuel w os) i s z true = Ok w' -> in_step (w' i).
Proof.
  intros fuel w os i s z w' G0 E.
  assert (G : forall j, good (run fuel w os j)).
  { revert w G0 E. induction os as [|o os IH]; intros w G0 E; [exact G0|]. apply (IH (exec fuel w o)); [|exact E]. now apply exec_good. }
  revert E G. generalize (run fuel w os) as v. clear. intros v E G.
  destruct fuel as [|f]; [discriminate|]. cbn [update] in E. set (n := requantize (set_params (v i) s z)) in E.
  assert (GN : good n /\ in_step n) by (apply requantize_ok, (G i)).
  assert (G1 : forall j, good (upd v i n j)). { intros k. destruct (upd_cases v i k n) as [[_ ->]|[_ ->]]; [apply GN|apply G]. }
  assert (P1 : in_step (upd v i n i)) by (rewrite upd_same; apply GN).
  revert E G1 P1. generalize (upd v i n) as w1. generalize (n_hooks n) as hs. clear.
  induction hs as [|h hs IHh]; intros w1 E G1 P1; cbn [fold_left] in E.
  - assert (w1 = w') by congruence. now subst.
  - cbn [rbind] in E. destruct (update f w1 _ _ _ true) as [w2|e] eqn:U; [|rewrite fold_update_err in E; discriminate].
    apply (IHh w2); [exact E| |exact (update_in_step_kept f _ _ _ _ _ i G1 P1 U)].
    refine (update_all f good w1 _ _ _ true w2 _ (or_introl eq_refl) G1 U). intros n0 s0 z0 H. apply requantize_ok, H.
Qed.

(** concrete one-entry node *)
Definition one_node (s : Q) (z : Z) (x : Q) : node := with_tensor (node_new s z int8) (nd_of_list 0%Q [x]).
Definition codes (n : node) : list Z := match n_tens n with Some t => nd_to_list (t_codes t) | None => [] end.
Lemma int8_ok : within_int32 int8. Proof. unfold within_int32, int8; cbn; lia. Qed.
Example C30_example : let w := run 5 (fun _ => one_node 1 0 (3#5)) [OUpdate 0 (1#2) 3; OPolicy 0 (nd_of_list 0%Q [0%Q])] in
  codes (w 0%nat) = [4] /\ in_step (w 0%nat).
Proof.
  split; [vm_compute; reflexivity|].
  apply (C30_in_step 5); [|repeat constructor]. intros j. apply with_tensor_ok, int8_ok.
Qed.

(** the bare resets leave the codes of the previous parameters behind *)
Theorem C30_reset_stale_refuted : exists w os j, (forall i, good (w i) /\ in_step (w i)) /\ ~ in_step (run 5 w os j) /\
  os = [OUpdate j (1#2) 0; OResetScale j].
Proof.
  exists (fun _ => one_node 1 0 10), [OUpdate 0 (1#2) 0; OResetScale 0], 0%nat.
  split; [intros; apply with_tensor_ok, int8_ok|]. split; [|reflexivity]. intros [_ H]. specialize (H [0%nat] eq_refl). vm_compute in H. discriminate.
Qed.
(** The resets restore what the node was created with, whatever happened in between, and touch nothing else: reset_scale the
    scale, reset_zp the zero point, reset_rounding the policy (and the codes follow, with the current parameters). *)
Definition og (n : node) : Q * Z * option (nd Q) := (n_og_scale n, n_og_zp n, option_map t_og_policy (n_tens n)).
Lemma og_requantize n : og (requantize n) = og n.
Proof. unfold requantize, og. cbn. destruct (n_tens n); reflexivity. Qed.
Lemma update_og fuel : forall w i s z rq w' j, update fuel w i s z rq = Ok w' -> og (w' j) = og (w j).
Proof.
  induction fuel as [|f IH]; intros w i s z rq w' j E; [discriminate|]. cbn [update] in E.
  set (n := if rq then requantize (set_params (w i) s z) else set_params (w i) s z) in E.
  assert (ON : og n = og (w i)) by (unfold n; destruct rq; [rewrite og_requantize|]; reflexivity).
  assert (O1 : og (upd w i n j) = og (w j)). { destruct (upd_cases w i j n) as [[-> ->]|[_ ->]]; [exact ON|reflexivity]. }
  rewrite <- O1. clear O1 ON. revert E. generalize (upd w i n) as w1. generalize (n_hooks n) as hs. clear - IH.
  induction hs as [|h hs IHh]; intros w1 E; cbn [fold_left] in E.
  - assert (w1 = w') by congruence. now subst.
  - cbn [rbind] in E. destruct (update f w1 _ _ _ true) as [w2|e] eqn:U; [|rewrite fold_update_err in E; discriminate].
    rewrite (IHh w2 E). exact (IH _ _ _ _ _ _ j U).
Qed.
Lemma set_policy_og n p n' : set_policy n p = Ok n' -> og n' = og n.
Proof.
  unfold set_policy. intros E. destruct (n_tens n) as [t|] eqn:T; [|discriminate]. destruct (shape_eqb _ _); [|discriminate].
  match type of E with Ok ?m = _ => assert (n' = m) by congruence end. subst n'. unfold og. cbn. rewrite T. reflexivity.
Qed.
Lemma run_og fuel os : forall w j, og (run fuel w os j) = og (w j).
Proof.
  induction os as [|o os IH]; intros w j; [reflexivity|]. cbn [run fold_left]. change (fold_left (exec fuel) os (exec fuel w o)) with (run fuel (exec fuel w o) os).
  rewrite IH. clear IH. destruct o; cbn [exec].
  - destruct (update fuel w i s z true) as [w'|] eqn:U; [exact (update_og _ _ _ _ _ _ _ j U)|reflexivity].
  - destruct (update fuel w i s z false) as [w'|] eqn:U; [exact (update_og _ _ _ _ _ _ _ j U)|reflexivity].
  - destruct (set_policy (w i) p) as [n|] eqn:E; cbn [lift]; [|reflexivity]. apply set_policy_og in E.
    destruct (upd_cases w i j n) as [[-> ->]|[_ ->]]; [exact E|reflexivity].
  - unfold reset_rounding. destruct (n_tens (w i)) as [t|] eqn:T; cbn [lift]; [|reflexivity].
    destruct (set_policy (w i) (t_og_policy t)) as [n|] eqn:E; cbn [lift]; [|reflexivity]. apply set_policy_og in E.
    destruct (upd_cases w i j n) as [[-> ->]|[_ ->]]; [exact E|reflexivity].
  - match goal with |- context [upd w i ?n j] => destruct (upd_cases w i j n) as [[-> ->]|[_ ->]]; reflexivity end.
  - match goal with |- context [upd w i ?n j] => destruct (upd_cases w i j n) as [[-> ->]|[_ ->]]; reflexivity end.
  - match goal with |- context [upd w i ?n j] => destruct (upd_cases w i j n) as [[-> ->]|[_ ->]]; reflexivity end.
  - match goal with |- context [upd w i ?n j] => destruct (upd_cases w i j n) as [[-> ->]|[_ ->]]; reflexivity end.
Qed.
(** a node as its constructor left it *)
Definition fresh_node (n : node) : Prop :=
  exists s z q, n = node_new s z q \/ exists fp, n = with_tensor (node_new s z q) fp.
Theorem C30_resets : forall fuel w os i j, fresh_node (w i) ->
  let v := run fuel w os in
  (let v' := run fuel v [OResetScale i] in
     n_scale (v' i) = n_scale (w i) /\ n_zp (v' i) = n_zp (v i) /\ n_tens (v' i) = n_tens (v i) /\ n_lut (v' i) = n_lut (v i) /\
     (j <> i -> v' j = v j)) /\
  (let v' := run fuel v [OResetZp i] in
     n_scale (v' i) = n_scale (v i) /\ n_zp (v' i) = n_zp (w i) /\ n_tens (v' i) = n_tens (v i) /\ n_lut (v' i) = n_lut (v i) /\
     (j <> i -> v' j = v j)) /\
  (good (v i) -> let v' := run fuel v [OResetRounding i] in
     option_map t_policy (n_tens (v' i)) = option_map t_policy (n_tens (w i)) /\ (n_tens (v' i) <> None -> in_step (v' i)) /\
     n_scale (v' i) = n_scale (v i) /\ n_zp (v' i) = n_zp (v i) /\ (j <> i -> v' j = v j)).
Proof.
  intros fuel w os i j F v. pose proof (run_og fuel os w i) as O. fold v in O.
  assert (OW : og (w i) = (n_scale (w i), n_zp (w i), option_map t_policy (n_tens (w i)))).
  { destruct F as (s & z & q & [-> | [fp ->]]); reflexivity. }
  rewrite OW in O. unfold og in O. clearbody v.
  assert (O1 : n_og_scale (v i) = n_scale (w i)) by congruence. assert (O2 : n_og_zp (v i) = n_zp (w i)) by congruence.
  assert (O3 : option_map t_og_policy (n_tens (v i)) = option_map t_policy (n_tens (w i))) by congruence. clear O OW.
  cbn [run fold_left exec]. split; [|split].
  - rewrite upd_same. unfold reset_scale. cbn. rewrite O1. repeat split. intros H. now apply upd_other.
  - rewrite upd_same. unfold reset_zp. cbn. rewrite O2. repeat split. intros H. now apply upd_other.
  - intros G. pose proof G as [_ G']. unfold reset_rounding. destruct (n_tens (v i)) as [t|] eqn:T; cbn [lift].
    + destruct (set_policy (v i) (t_og_policy t)) as [n|] eqn:E.
      * cbn [lift]. rewrite upd_same. destruct (set_policy_ok _ _ _ G E) as [_ I]. unfold set_policy in E. rewrite T in E.
        destruct (shape_eqb _ _); [|discriminate]. match type of E with Ok ?m = _ => assert (n = m) by congruence end. subst n.
        cbn in O3 |- *. split; [exact O3|]. split; [intros _; exact I|]. repeat split. intros H. now apply upd_other.
      * exfalso. unfold set_policy in E. rewrite T in E. destruct G' as [G1 G2]. unfold shape_eqb in E.
        destruct (list_eq_dec _ _ _); [discriminate|]. now apply n.
    + rewrite T. cbn in O3 |- *. split; [exact O3|]. split; [intros H; congruence|]. repeat split.
Qed.
Example C30_resets_example : fresh_node (one_node 1 0 (3#5)) /\
  let v := run 5 (fun _ => one_node 1 0 (3#5)) [OUpdate 0 (1#2) 3; OPolicy 0 (nd_of_list 0%Q [0%Q]); OResetRounding 0; OResetScale 0; OResetZp 0] in
  n_scale (v 0%nat) = 1%Q /\ n_zp (v 0%nat) = 0 /\ codes (v 0%nat) = [5].
Proof. split; [exists 1%Q, 0, int8; right; eexists; reflexivity|]. vm_compute. repeat split. Qed.
(** The policy is frozen at creation: after a scale update the codes are in step but no longer nearest;
    here 3/5 at scale 1/2 gets code 2 although 1 is nearer, an error above half a step. *)
Theorem C30_nearest_lost_refuted : exists w, w = run 5 (fun _ => one_node 1 0 (3#5)) [OUpdate 0 (1#2) 0] /\ in_step (w 0%nat) /\
  codes (w 0%nat) = [2] /\ codes (one_node (1#2) 0 (3#5)) = [1] /\
  (Qabs ((3#5) - dequant1 0 (1#2) 1) <= 1#4)%Q /\ (1#4 < Qabs ((3#5) - dequant1 0 (1#2) 2))%Q.
Proof.
  eexists. split; [reflexivity|]. split.
  - apply (C30_in_step 5); [|repeat constructor]. intros j. apply with_tensor_ok, int8_ok.
  - split; [vm_compute; reflexivity|]. split; [vm_compute; reflexivity|]. split; [vm_compute; discriminate|vm_compute; reflexivity].
Qed.
(** but as long as the policy stays binary the error never exceeds one step (entries inside the range) *)
Theorem C30_within_one_step : forall n t i, good n -> in_step n -> n_tens n = Some t -> (0 < n_scale n)%Q -> diff_in_int32 (n_q n) (n_zp n) ->
  valid_idx (nd_shape (t_fp t)) i = true -> (nd_get (t_policy t) i = 0%Q \/ nd_get (t_policy t) i = 1%Q) ->
  (gmin (n_q n) <= Qfloor (real_code (nd_get (t_fp t) i) (n_scale n) (n_zp n)) < gmax (n_q n)) ->
  (Qabs (nd_get (t_fp t) i - dequant1 (n_zp n) (n_scale n) (nd_get (t_codes t) i)) <= n_scale n)%Q.
Proof.
  intros n t i [H G] P T SP DI V B R. unfold in_step in P. rewrite T in P, G. destruct P as [_ P]. rewrite (P i V).
  rewrite <- quant1p_code by exact H. set (x := nd_get (t_fp t) i) in *.
  assert (Hf : Qfloor (real_code x (n_scale n) (n_zp n)) = Qfloor (x / n_scale n) + n_zp n) by (unfold real_code; apply Qfloor_plus_Z).
  assert (exists b : bool, nd_get (t_policy t) i = if b then 1%Q else 0%Q) as (b & ->)
    by (destruct B as [-> | ->]; [exists false|exists true]; reflexivity).
  pose proof (floor_ceil_error (n_q n) (n_zp n) (n_scale n) x b H DI SP) as E.
  assert (RR : gmin (n_q n) <= Qfloor (x / n_scale n) + n_zp n + (if b then 1 else 0) <= gmax (n_q n)) by (destruct b; lia).
  specialize (E RR). cbv zeta in E. apply Qabs_Qle_condition. destruct b; lra.
Qed.

(** ** C31: the [dequantized] view *)
Theorem C31_dequantized : forall n t v i, n_tens n = Some t -> dequantized n = Some v ->
  let correct := (n_scale n * (inject_Z (nd_get (t_codes t) i) - inject_Z (n_zp n)))%Q in
  (nd_get v i == correct + inject_Z (n_zp n) * (1 + n_scale n))%Q /\
  ((0 < n_scale n)%Q -> (nd_get v i == correct)%Q <-> n_zp n = 0).
Proof.
  intros n t v i T D correct. unfold dequantized in D. rewrite T in D. cbn [option_map] in D.
  match type of D with Some ?a = _ => assert (v = a) by congruence end. subst v. cbn [nd_get nd_map].
  assert (E : (inject_Z (nd_get (t_codes t) i) * n_scale n + inject_Z (n_zp n) == correct + inject_Z (n_zp n) * (1 + n_scale n))%Q)
    by (unfold correct; ring).
  split; [exact E|]. intros SP. rewrite E. split.
  - intros H. assert (Z0 : (inject_Z (n_zp n) * (1 + n_scale n) == 0)%Q) by lra.
    apply Qmult_integral in Z0 as [Z0|Z0]; [|lra]. apply (inject_Z_injective (n_zp n) 0). exact Z0.
  - intros ->. change (inject_Z 0) with 0%Q. ring.
Qed.
(** for instance the value 5 stored with scale 1 and zero point 3 is reported as 11 *)
Theorem C31_dequantized_refuted : exists n v, n = one_node 1 3 5 /\ in_step n /\ dequantized n = Some v /\ (nd_get v [0%nat] == 11)%Q.
Proof.
  eexists _, _. split; [reflexivity|]. split; [apply with_tensor_ok, int8_ok|]. split; [reflexivity|]. vm_compute. reflexivity.
Qed.

(** ** C32: bias scale *)
Definition bias_ok (w : world) (h : hook) : Prop :=
  (n_scale (w (h_bias h)) == n_scale (w (h_kernel h)) * n_scale (w (h_input h)))%Q /\
  n_zp (w (h_bias h)) = 0 /\ in_step (w (h_bias h)).

Record wired (w : world) (ls : list hook) : Prop := {
  wi_leaf : forall h, In h ls -> n_hooks (w (h_bias h)) = [];
  wi_sub : forall h, In h ls -> In h (n_hooks (w (h_kernel h))) /\ In h (n_hooks (w (h_input h)));
  wi_closed : forall j h, In h (n_hooks (w j)) -> In h ls;
  wi_sep : forall h h', In h ls -> In h' ls -> h_bias h <> h_kernel h' /\ h_bias h <> h_input h' /\ (h_bias h = h_bias h' -> h = h') }.

(** a node other than a bias is updated; everything is re-established by the hooks, which need no more
    than one level of recursion *)
Lemma upd_hooks w i n : n_hooks n = n_hooks (w i) -> forall j, n_hooks (upd w i n j) = n_hooks (w j).
Proof. intros H j. destruct (upd_cases w i j n) as [[-> ->]|[_ ->]]; [exact H|reflexivity]. Qed.
Lemma wired_hooks w w' ls : (forall j, n_hooks (w' j) = n_hooks (w j)) -> wired w ls -> wired w' ls.
Proof.
  intros E [A B C D]. split.
  - intros h H. rewrite E. auto.
  - intros h H. rewrite !E. auto.
  - intros j h H. rewrite E in H. eauto.
  - exact D.
Qed.
Lemma requantize_hooks n : n_hooks (requantize n) = n_hooks n. Proof. reflexivity. Qed.
Lemma requantize_params n : n_scale (requantize n) = n_scale n /\ n_zp (requantize n) = n_zp n. Proof. split; reflexivity. Qed.

Lemma update_leaf f w b s z : n_hooks (w b) = [] -> update (S f) w b s z true = Ok (upd w b (requantize (set_params (w b) s z))).
Proof. intros H. cbn [update]. rewrite requantize_hooks. cbn [set_params n_hooks]. rewrite H. reflexivity. Qed.

Lemma run_hooks f ls : forall hs w, (forall j, good (w j)) -> wired w ls -> (forall h, In h hs -> In h ls) ->
  (forall h, In h ls -> n_zp (w (h_bias h)) = 0) ->
  exists w', fold_left (fun acc h => do w <- acc;
          update (S f) w (h_bias h) (n_scale (w (h_kernel h)) * n_scale (w (h_input h)))%Q (n_zp (w (h_bias h))) true) hs (Ok w) = Ok w' /\
    (forall j, good (w' j)) /\ (forall j, n_hooks (w' j) = n_hooks (w j)) /\
    (forall h, In h ls -> n_zp (w' (h_bias h)) = 0) /\
    (forall j, (forall h, In h hs -> j <> h_bias h) -> w' j = w j) /\
    (forall h, In h ls -> (bias_ok w h \/ In h hs) -> bias_ok w' h).
Proof.
  induction hs as [|h hs IH]; intros w G W SUB ZP.
  - exists w. split; [reflexivity|]. split; [exact G|]. split; [reflexivity|]. split; [exact ZP|]. split; [reflexivity|]. intros h Hh [B|[]]. exact B.
  - cbn [fold_left rbind]. assert (HL : In h ls) by (apply SUB; now left).
    rewrite update_leaf by (apply (wi_leaf _ _ W), HL).
    set (n := requantize _). set (w1 := upd w (h_bias h) n).
    assert (GN : good n /\ in_step n) by (apply requantize_ok, (G (h_bias h))).
    assert (H1 : forall j, n_hooks (w1 j) = n_hooks (w j)) by (apply upd_hooks; reflexivity).
    assert (G1 : forall j, good (w1 j)). { intros j. unfold w1. destruct (upd_cases w (h_bias h) j n) as [[_ ->]|[_ ->]]; [apply GN|apply G]. }
    assert (Z1 : forall h', In h' ls -> n_zp (w1 (h_bias h')) = 0).
    { intros h' H'. unfold w1. destruct (upd_cases w (h_bias h) (h_bias h') n) as [[_ ->]|[_ ->]]; [exact (ZP h HL)|auto]. }
    destruct (IH w1 G1 (wired_hooks _ _ _ H1 W) (fun h' H' => SUB h' (or_intror H')) Z1) as (w' & E & A1 & A2 & A3 & A4 & A5).
    exists w'. split; [exact E|]. split; [exact A1|]. split; [intros j; rewrite A2; apply H1|]. split; [exact A3|]. split.
    + intros j Hj. rewrite A4 by (intros h' H'; apply Hj; now right). apply upd_other. apply Hj. now left.
    + intros h' H' B. apply A5; [exact H'|]. destruct B as [B|[<- |B]]; [|left|now right].
      * left. unfold bias_ok in *. destruct (wi_sep _ _ W h h' HL H') as (S1 & S2 & S3).
        unfold w1. rewrite (upd_other w (h_bias h) (h_kernel h')), (upd_other w (h_bias h) (h_input h')) by congruence.
        destruct (upd_cases w (h_bias h) (h_bias h') n) as [[EQ ->]|[_ ->]]; [|exact B].
        assert (h = h') by (apply S3; congruence). subst h'.
        split; [reflexivity|]. split; [exact (ZP h HL)|apply GN].
      * unfold bias_ok. destruct (wi_sep _ _ W h h HL HL) as (S1 & S2 & _). unfold w1.
        rewrite upd_same, (upd_other w (h_bias h) (h_kernel h)), (upd_other w (h_bias h) (h_input h)) by congruence.
        split; [reflexivity|]. split; [exact (ZP h HL)|apply GN].
Qed.

Definition not_bias (ls : list hook) (i : nat) : Prop := forall h, In h ls -> i <> h_bias h.
(** update (with or without requantization) of a node that is not a bias *)
Lemma update_keeps f ls w i s z rq : (forall j, good (w j)) -> wired w ls -> (forall h, In h ls -> bias_ok w h) -> not_bias ls i ->
  exists w', update (S (S f)) w i s z rq = Ok w' /\ (forall j, good (w' j)) /\ wired w' ls /\ (forall h, In h ls -> bias_ok w' h) /\
    n_scale (w' i) = s /\ n_zp (w' i) = z /\ (forall j, j <> i -> not_bias ls j -> w' j = w j).
Proof.
  intros G W B NB. cbn [update]. set (n := if rq then requantize (set_params (w i) s z) else set_params (w i) s z).
  assert (GN : good n). { unfold n. destruct rq; [apply requantize_ok, (G i)|exact (G i)]. }
  assert (HN : n_hooks n = n_hooks (w i)) by (unfold n; destruct rq; reflexivity).
  set (w1 := upd w i n). assert (H1 : forall j, n_hooks (w1 j) = n_hooks (w j)) by (apply upd_hooks; exact HN).
  assert (G1 : forall j, good (w1 j)). { intros j. unfold w1. destruct (upd_cases w i j n) as [[_ ->]|[_ ->]]; [apply GN|apply G]. }
  assert (Z1 : forall h, In h ls -> n_zp (w1 (h_bias h)) = 0).
  { intros h H. unfold w1. rewrite upd_other by (intros C; exact (NB h H (eq_sym C))). apply B, H. }
  destruct (run_hooks f ls (n_hooks n) w1 G1 (wired_hooks _ _ _ H1 W)) as (w' & E & A1 & A2 & A3 & A4 & A5);
    [rewrite HN; intros h; apply (wi_closed _ _ W)|exact Z1|].
  exists w'. split; [exact E|]. split; [exact A1|]. split; [apply (wired_hooks w); [intros j; rewrite A2; apply H1|exact W]|].
  assert (SUBL : forall h, In h (n_hooks n) -> In h ls) by (rewrite HN; intros h; apply (wi_closed _ _ W)).
  assert (WI : w' i = n). { rewrite A4; [apply upd_same|]. intros h Hh. exact (NB h (SUBL h Hh)). }
  split; [|split; [|split]].
  - intros h Hh. apply A5; [exact Hh|].
    destruct (Nat.eq_dec (h_kernel h) i) as [EK|NK]; [right; rewrite HN, <- EK; apply (wi_sub _ _ W h Hh)|].
    destruct (Nat.eq_dec (h_input h) i) as [EI|NI]; [right; rewrite HN, <- EI; apply (wi_sub _ _ W h Hh)|].
    left. unfold bias_ok, w1. rewrite !upd_other by (try exact NK; try exact NI; intros C; exact (NB h Hh (eq_sym C))). apply B, Hh.
  - rewrite WI. unfold n. now destruct rq.
  - rewrite WI. unfold n. now destruct rq.
  - intros j Nj NBj. rewrite A4 by (intros h Hh; apply NBj, SUBL, Hh). now apply upd_other.
Qed.

(** operations a parameter equalizer or a rounding optimizer performs: updates of nodes other than biases
    (with or without requantization), policies of any node *)
Definition allowed (ls : list hook) (o : op) : Prop :=
  match o with
  | OUpdate i _ _ | OUpdateNoRq i _ _ => not_bias ls i
  | OResetScale _ | OResetZp _ => False
  | _ => True
  end.

Lemma exec_keeps f ls w o : (forall j, good (w j)) -> wired w ls -> (forall h, In h ls -> bias_ok w h) -> allowed ls o ->
  (forall j, good (exec (S (S f)) w o j)) /\ wired (exec (S (S f)) w o) ls /\ (forall h, In h ls -> bias_ok (exec (S (S f)) w o) h).
Proof.
  intros G W B A. split; [now apply exec_good|].
  assert (LOC : forall i n, n_hooks n = n_hooks (w i) -> n_scale n = n_scale (w i) -> n_zp n = n_zp (w i) -> (in_step (w i) -> in_step n) ->
     wired (upd w i n) ls /\ (forall h, In h ls -> bias_ok (upd w i n) h)).
  { intros i n H1 H2 H3 H4. split; [apply (wired_hooks w); [now apply upd_hooks|exact W]|]. intros h Hh.
    destruct (B h Hh) as (B1 & B2 & B3).
    assert (SC : forall j, n_scale (upd w i n j) = n_scale (w j)) by (intros j; destruct (upd_cases w i j n) as [[-> ->]|[_ ->]]; [exact H2|reflexivity]).
    unfold bias_ok. rewrite !SC. split; [exact B1|].
    destruct (upd_cases w i (h_bias h) n) as [[EQ ->]|[_ ->]]; [rewrite H3, <- EQ; split; [exact B2|apply H4; now rewrite <- EQ]|split; assumption]. }
  destruct o; cbn [exec allowed] in *; try (destruct A; fail).
  - destruct (update_keeps f ls w i s z true G W B A) as (w' & -> & _ & R1 & R2 & _). split; assumption.
  - destruct (update_keeps f ls w i s z false G W B A) as (w' & -> & _ & R1 & R2 & _). split; assumption.
  - destruct (set_policy (w i) p) as [n|] eqn:E; cbn [lift]; [|split; assumption].
    assert (IS := proj2 (set_policy_ok _ _ _ (G i) E)). unfold set_policy in E.
    destruct (n_tens (w i)); [|discriminate]. destruct (shape_eqb _ _); [|discriminate].
    match type of E with Ok ?m = _ => assert (n = m) by congruence end. subst n. apply LOC; try reflexivity. intros _; exact IS.
  - unfold reset_rounding. destruct (n_tens (w i)) as [t|] eqn:T; cbn [lift]; [|split; assumption].
    destruct (set_policy (w i) (t_og_policy t)) as [n|] eqn:E; cbn [lift]; [|split; assumption].
    assert (IS := proj2 (set_policy_ok _ _ _ (G i) E)). unfold set_policy in E. rewrite T in E.
    destruct (shape_eqb _ _); [|discriminate].
    match type of E with Ok ?m = _ => assert (n = m) by congruence end. subst n. apply LOC; try reflexivity. intros _; exact IS.
  - apply LOC; try reflexivity. auto.
  - apply LOC; try reflexivity. auto.
Qed.

(** *** networks as the quantizer builds them *)
Definition spec_ok (sp : dense_spec) : Prop :=
  good (s_kernel sp) /\ in_step (s_kernel sp) /\ within_int32 (s_bias_q sp) /\ good (s_bias_add sp) /\ in_step (s_bias_add sp) /\
  match s_act sp with Some (_, on) => good on /\ in_step on | None => True end.

Record net_ok (st : net) : Prop := {
  no_good : forall j, good (w_nodes st j) /\ in_step (w_nodes st j);
  no_wired : wired (w_nodes st) (w_layers st);
  no_bias : forall h, In h (w_layers st) -> bias_ok (w_nodes st) h;
  no_in : (w_in st < w_next st)%nat;
  no_fresh : forall j, (w_next st <= j)%nat -> n_hooks (w_nodes st j) = [];
  no_ids : forall h, In h (w_layers st) -> (h_bias h < w_next st /\ h_kernel h < w_next st /\ h_input h < w_next st)%nat /\ h_bias h <> w_in st }.

Lemma start_ok n : good n -> in_step n -> net_ok (start_net n).
Proof.
  intros G S0. split; cbn; [intros _; split; [exact G|exact S0]| |intros h []|lia|reflexivity|intros h []].
  split; cbn; [intros h []|intros h []|intros j h []|intros h h' []].
Qed.
Lemma add_dense_ok st sp : net_ok st -> spec_ok sp -> net_ok (add_dense st sp).
Proof.
  intros [NG NW NB NI NF NID] (K1 & K2 & BQ & A1 & A2 & AC).
  unfold add_dense. destruct st as [w nx inp ls]. cbn [w_nodes w_next w_in w_layers] in *.
  set (kn := set_hooks (s_kernel sp) []). set (bn := with_tensor _ (s_bias sp)).
  set (an0 := set_hooks (s_bias_add sp) []). set (an := match s_act sp with Some (fn, on) => with_lut an0 fn (n_scale on) (n_zp on) | None => an0 end).
  set (h := mkhook (S nx) nx inp).
  set (w2 := upd (upd (upd w nx kn) (S nx) bn) (S (S nx)) an).
  set (w3 := match s_act sp with Some (_, on) => upd w2 (S (S (S nx))) (set_hooks on []) | None => w2 end).
  assert (AN : good an /\ in_step an /\ n_hooks an = []).
  { unfold an. destruct (s_act sp) as [[fn on]|]; (split; [exact A1|split; [exact A2|reflexivity]]). }
  assert (OLD : forall j, (j < nx)%nat -> w3 j = w j).
  { intros j Hj. assert (X : w2 j = w j) by (unfold w2; rewrite !upd_other by lia; reflexivity).
    unfold w3. destruct (s_act sp) as [[fn on]|]; [|exact X]. rewrite upd_other by lia. exact X. }
  assert (KN : w3 nx = kn).
  { assert (X : w2 nx = kn) by (unfold w2; rewrite !upd_other by lia; apply upd_same).
    unfold w3. destruct (s_act sp) as [[fn on]|]; [|exact X]. rewrite upd_other by lia. exact X. }
  assert (BN : w3 (S nx) = bn).
  { assert (X : w2 (S nx) = bn) by (unfold w2; rewrite upd_other by lia; apply upd_same).
    unfold w3. destruct (s_act sp) as [[fn on]|]; [|exact X]. rewrite upd_other by lia. exact X. }
  assert (ALL : forall j, good (w3 j) /\ in_step (w3 j)).
  { assert (X : forall j, good (w2 j) /\ in_step (w2 j)).
    { intros j. unfold w2. destruct (upd_cases (upd (upd w nx kn) (S nx) bn) (S (S nx)) j an) as [[_ ->]|[_ ->]]; [split; apply AN|].
      destruct (upd_cases (upd w nx kn) (S nx) j bn) as [[_ ->]|[_ ->]]; [apply with_tensor_ok, BQ|].
      destruct (upd_cases w nx j kn) as [[_ ->]|[_ ->]]; [split; [exact K1|exact K2]|apply NG]. }
    unfold w3. destruct (s_act sp) as [[fn on]|]; [|exact X]. intros j.
    destruct (upd_cases w2 (S (S (S nx))) j (set_hooks on [])) as [[_ ->]|[_ ->]]; [exact AC|apply X]. }
  assert (NH : forall j, (nx <= j)%nat -> n_hooks (w3 j) = []).
  { assert (X : forall j, (nx <= j)%nat -> n_hooks (w2 j) = []).
    { intros j Hj. unfold w2. destruct (upd_cases (upd (upd w nx kn) (S nx) bn) (S (S nx)) j an) as [[_ ->]|[_ ->]]; [apply AN|].
      destruct (upd_cases (upd w nx kn) (S nx) j bn) as [[_ ->]|[_ ->]]; [reflexivity|].
      destruct (upd_cases w nx j kn) as [[_ ->]|[_ ->]]; [reflexivity|apply NF, Hj]. }
    unfold w3. destruct (s_act sp) as [[fn on]|]; [|exact X]. intros j Hj.
    destruct (upd_cases w2 (S (S (S nx))) j (set_hooks on [])) as [[_ ->]|[_ ->]]; [reflexivity|apply X, Hj]. }
  (* subscription only changes hook lists *)
  assert (SUB : forall j, subscribe w3 h j = set_hooks (w3 j) (n_hooks (w3 j) ++ (if (j =? nx)%nat then [h] else []) ++ (if (j =? inp)%nat then [h] else []))).
  { intros j. unfold subscribe. cbn [h_kernel h_input h]. set (u1 := upd w3 nx _). assert (inp <> nx) by lia.
    destruct (Nat.eq_dec j inp) as [-> | J1].
    - rewrite upd_same. unfold u1. rewrite upd_other by lia. rewrite Nat.eqb_refl. assert ((inp =? nx)%nat = false) as -> by (apply Nat.eqb_neq; lia). reflexivity.
    - rewrite upd_other by exact J1. apply Nat.eqb_neq in J1. rewrite J1. unfold u1.
      destruct (Nat.eq_dec j nx) as [-> | J2]; [rewrite upd_same, Nat.eqb_refl; now rewrite app_nil_r|].
      rewrite upd_other by exact J2. apply Nat.eqb_neq in J2. rewrite J2. cbn [app]. rewrite app_nil_r. destruct (w3 j); reflexivity. }
  assert (PAR : forall j, n_scale (subscribe w3 h j) = n_scale (w3 j) /\ n_zp (subscribe w3 h j) = n_zp (w3 j) /\ (in_step (w3 j) -> in_step (subscribe w3 h j)) /\ (good (w3 j) -> good (subscribe w3 h j))).
  { intros j. rewrite SUB. split; [reflexivity|]. split; [reflexivity|]. split; intros X; exact X. }
  set (nin := match s_act sp with Some _ => S (S (S nx)) | None => S (S nx) end).
  assert (NIN : (nx < nin)%nat /\ nin <> S nx /\ (nin < S (S (S (S nx))))%nat) by (unfold nin; destruct (s_act sp); lia).
  split; cbn [w_nodes w_next w_in w_layers].
  - intros j. destruct (PAR j) as (_ & _ & P1 & P2). destruct (ALL j). split; auto.
  - split.
    + intros g Hg. apply in_app_iff in Hg as [Hg|[<- |[]]].
      * destruct (NID g Hg) as [(I1 & _ & _) I4]. rewrite SUB. cbn [n_hooks set_hooks].
        assert ((h_bias g =? nx)%nat = false) as -> by (apply Nat.eqb_neq; lia). apply Nat.eqb_neq in I4. rewrite I4.
        rewrite OLD by exact I1. rewrite (wi_leaf _ _ NW g Hg). reflexivity.
      * rewrite SUB. cbn [n_hooks set_hooks h_bias h]. rewrite NH by lia.
        assert ((S nx =? nx)%nat = false) as -> by (apply Nat.eqb_neq; lia). assert ((S nx =? inp)%nat = false) as -> by (apply Nat.eqb_neq; lia). reflexivity.
    + intros g Hg. apply in_app_iff in Hg as [Hg|[<- |[]]].
      * destruct (NID g Hg) as [(I1 & I2 & I3) I4]. rewrite !SUB. cbn [n_hooks set_hooks]. rewrite !OLD by assumption.
        destruct (wi_sub _ _ NW g Hg). split; apply in_app_iff; left; assumption.
      * rewrite !SUB. cbn [n_hooks set_hooks h_kernel h_input h]. rewrite !Nat.eqb_refl. split; rewrite !in_app_iff; cbn; tauto.
    + intros j g Hg. rewrite SUB in Hg. cbn [n_hooks set_hooks] in Hg. apply in_app_iff. apply in_app_iff in Hg as [Hg|Hg].
      * left. destruct (Nat.lt_ge_cases j nx) as [L|L]; [rewrite OLD in Hg by exact L; eapply (wi_closed _ _ NW); exact Hg|rewrite NH in Hg by exact L; destruct Hg].
      * right. apply in_app_iff in Hg as [Hg|Hg]; [destruct (j =? nx)%nat|destruct (j =? inp)%nat]; cbn [In] in Hg |- *; tauto.
    + intros g g' Hg Hg'. apply in_app_iff in Hg as [Hg|[<- |[]]]; apply in_app_iff in Hg' as [Hg'|[<- |[]]].
      * apply (wi_sep _ _ NW g g' Hg Hg').
      * destruct (NID g Hg) as [(I1 & I2 & I3) I4]. cbn [h_kernel h_input h_bias h]. split; [lia|]. split; [exact I4|lia].
      * destruct (NID g' Hg') as [(I1 & I2 & I3) I4]. cbn [h_kernel h_input h_bias h]. split; [lia|]. split; [lia|lia].
      * cbn [h_kernel h_input h_bias h]. split; [lia|]. split; [lia|reflexivity].
  - intros g Hg. apply in_app_iff in Hg as [Hg|[<- |[]]].
    + destruct (NID g Hg) as [(I1 & I2 & I3) I4]. destruct (NB g Hg) as (B1 & B2 & B3). unfold bias_ok.
      destruct (PAR (h_bias g)) as (-> & -> & P1 & _). destruct (PAR (h_kernel g)) as (-> & _). destruct (PAR (h_input g)) as (-> & _).
      rewrite !OLD in * by assumption. split; [exact B1|]. split; [exact B2|apply P1; exact B3].
    + unfold bias_ok. destruct (PAR (h_bias h)) as (-> & -> & P1 & _). destruct (PAR (h_kernel h)) as (-> & _). destruct (PAR (h_input h)) as (-> & _).
      cbn [h_kernel h_input h_bias h] in *. rewrite BN in *. rewrite KN. rewrite OLD by exact NI.
      split; [cbn [n_scale bn with_tensor node_new]; ring|]. split; [reflexivity|]. apply P1, with_tensor_ok, BQ.
  - lia.
  - intros j Hj. rewrite SUB. cbn [n_hooks set_hooks]. rewrite NH by lia.
    assert ((j =? nx)%nat = false) as -> by (apply Nat.eqb_neq; lia). assert ((j =? inp)%nat = false) as -> by (apply Nat.eqb_neq; lia). reflexivity.
  - intros g Hg. apply in_app_iff in Hg as [Hg|[<- |[]]].
    + destruct (NID g Hg) as [(I1 & I2 & I3) I4]. split; [lia|]. lia.
    + cbn [h_kernel h_input h_bias h]. split; [lia|]. lia.
Qed.

Lemma build_ok input specs : good input -> in_step input -> Forall spec_ok specs -> net_ok (build_net input specs).
Proof.
  intros G S0. unfold build_net. assert (X := start_ok input G S0). revert X. generalize (start_net input) as st.
  induction specs as [|sp specs IH]; intros st X F; [exact X|]. inversion F; subst. cbn [fold_left]. apply IH; [|assumption]. now apply add_dense_ok.
Qed.

(** For every stack of dense layers the quantizer builds and every history of equalizer and rounding moves
    (also ones without requantization), every bias has scale = kernel scale * input scale, zero point 0,
    and codes in step; no update ever raises. *)
Theorem C32_bias_follows : forall input specs f os, good input -> in_step input -> Forall spec_ok specs ->
  let st := build_net input specs in
  Forall (allowed (w_layers st)) os ->
  length (w_layers st) = length specs /\
  forall h, In h (w_layers st) -> bias_ok (run (S (S f)) (w_nodes st) os) h.
Proof.
  intros input specs f os G S0 F st A. split.
  - unfold st, build_net. change 0%nat with (length (w_layers (start_net input))).
    assert (L : forall l st, length (w_layers (fold_left add_dense l st)) = (length (w_layers st) + length l)%nat).
    { induction l as [|x l IH]; intros s; cbn [fold_left length]; [lia|]. rewrite IH. unfold add_dense. cbn [w_layers]. rewrite app_length. cbn. lia. }
    rewrite L. reflexivity.
  - destruct (build_ok input specs G S0 F) as [NG NW NB _ _ _]. fold st in NG, NW, NB.
    assert (NG' : forall j, good (w_nodes st j)) by (intros; apply NG). clear NG.
    revert NG' NW NB A. generalize (w_nodes st) as w. generalize (w_layers st) as ls. clear.
    intros ls w. revert w. induction os as [|o os IH]; intros w G W B A; [exact B|].
    inversion A; subst. destruct (exec_keeps f ls w o G W B) as (G' & W' & B'); [assumption|]. cbn [run fold_left]. now apply IH.
Qed.
Theorem C32_updates_never_raise : forall input specs f os i s z rq, good input -> in_step input -> Forall spec_ok specs ->
  let st := build_net input specs in
  Forall (allowed (w_layers st)) os -> not_bias (w_layers st) i ->
  exists w', update (S (S f)) (run (S (S f)) (w_nodes st) os) i s z rq = Ok w' /\
    n_scale (w' i) = s /\ n_zp (w' i) = z /\
    forall j, j <> i -> not_bias (w_layers st) j -> w' j = run (S (S f)) (w_nodes st) os j.
Proof.
  intros input specs f os i s z rq G S0 F st A NB0.
  destruct (build_ok input specs G S0 F) as [NG NW NB _ _ _]. fold st in NG, NW, NB.
  assert (NG' : forall j, good (w_nodes st j)) by (intros; apply NG). clear NG.
  assert (X : (forall j, good (run (S (S f)) (w_nodes st) os j)) /\ wired (run (S (S f)) (w_nodes st) os) (w_layers st) /\
     (forall h, In h (w_layers st) -> bias_ok (run (S (S f)) (w_nodes st) os) h)).
  { clear NB0. revert NG' NW NB A. generalize (w_nodes st) as w. generalize (w_layers st) as ls. clear.
    intros ls w. revert w. induction os as [|o os IH]; intros w G W B A; [split; [exact G|split; [exact W|exact B]]|].
    inversion A; subst. destruct (exec_keeps f ls w o G W B) as (G' & W' & B'); [assumption|]. cbn [run fold_left]. now apply IH. }
  destruct X as (X1 & X2 & X3). destruct (update_keeps f _ _ i s z rq X1 X2 X3 NB0) as (w' & E & _ & _ & _ & R1 & R2 & R3).
  exists w'. auto.
Qed.

(** two dense layers, the first with a LUT activation *)
Definition ex_input := one_node (1#4) (-3) 2.
Definition ex_specs : list dense_spec :=
  [mkspec (one_node (1#8) 0 (1#2)) int32 (nd_of_list 0%Q [(3#2)%Q]) (one_node (1#4) 5 1) (Some ((fun x => x / (1 + Qabs x))%Q, one_node (1#128) 0 (1#2)));
   mkspec (one_node (1#16) 0 (1#4)) int32 (nd_of_list 0%Q [1%Q]) (one_node (1#2) 1 1) None].
Lemma one_ok s z x : good (one_node s z x) /\ in_step (one_node s z x).
Proof. apply with_tensor_ok, int8_ok. Qed.
Example C32_example : good ex_input /\ in_step ex_input /\ Forall spec_ok ex_specs /\
  let st := build_net ex_input ex_specs in
  w_layers st = [mkhook 2 1 0; mkhook 6 5 4] /\
  let os := [OUpdate 1 (1#3) 1; OUpdateNoRq 4 (1#9) 2; OPolicy 2 (nd_of_list 0%Q [1%Q])] in
  Forall (allowed (w_layers st)) os /\
  n_scale (run 7 (w_nodes st) os 2%nat) = ((1#3) * (1#4))%Q /\ n_scale (run 7 (w_nodes st) os 6%nat) = ((1#16) * (1#9))%Q /\
  codes (run 7 (w_nodes st) os 2%nat) = [19].
Proof.
  split; [apply one_ok|]. split; [apply one_ok|]. split.
  { repeat constructor; try apply one_ok; unfold within_int32, int32; cbn; lia. }
  cbn zeta. split; [reflexivity|]. split; [|split; [vm_compute; reflexivity|split; vm_compute; reflexivity]].
  repeat constructor; intros h [<- |[<- |[]]]; cbn; lia.
Qed.
(** Not covered by the hooks: resetting the kernel's scale, or updating the bias itself. *)
Theorem C32_reset_refuted : exists input specs h, good input /\ in_step input /\ Forall spec_ok specs /\
  In h (w_layers (build_net input specs)) /\
  ~ bias_ok (run 7 (w_nodes (build_net input specs)) [OUpdate (h_kernel h) (1#3) 0; OResetScale (h_kernel h)]) h /\
  ~ bias_ok (run 7 (w_nodes (build_net input specs)) [OUpdate (h_bias h) 1 0]) h.
Proof.
  exists ex_input, ex_specs, (mkhook 2 1 0).
  split; [apply one_ok|]. split; [apply one_ok|]. split; [apply C32_example|]. split; [now left|].
  split; intros [H _]; vm_compute in H; discriminate.
Qed.
