(** Lemmas about parameter updates, moves and copies on a wired node store (used by PropBfs). *)
From Verif Require Import Base BaseProofs DtypeModel QuantModel QuantProofs PropCore NodeModel EqModel PropNode PropEq.
From Coq Require Import Lqa.
Open Scope Z_scope.
Open Scope list_scope.

(** what updates of parameters never change: everything but parameters, codes and the table *)
Definition skel (n : node) : node :=
  mknode 0 0 (n_og_scale n) (n_og_zp n) (n_q n)
    (option_map (fun t => mktens (t_fp t) (t_policy t) (t_og_policy t) (mknd [] (fun _ => 0))) (n_tens n))
    (option_map (fun l => mklut (l_q l) (l_fn l) 0 0 (l_out_s l) (l_out_zp l) (l_policy l) []) (n_lut n)) (n_hooks n).
Lemma skel_params n s z : skel (set_params n s z) = skel n. Proof. reflexivity. Qed.
Lemma skel_requantize n : skel (requantize n) = skel n.
Proof. unfold skel, requantize. destruct n as [? ? ? ? ? [t|] [l|] ?]; reflexivity. Qed.

Lemma update_skel fuel : forall w i s z rq w', update fuel w i s z rq = Ok w' -> forall j, skel (w' j) = skel (w j).
Proof.
  induction fuel as [|f IH]; intros w i s z rq w' E; [discriminate|]. cbn [update] in E.
  set (n := if rq then requantize (set_params (w i) s z) else set_params (w i) s z) in E.
  assert (SN : skel n = skel (w i)). { unfold n. destruct rq; [rewrite skel_requantize|]; apply skel_params. }
  assert (S1 : forall j, skel (upd w i n j) = skel (w j)). { intros j. destruct (upd_cases w i j n) as [[-> ->]|[_ ->]]; [exact SN|reflexivity]. }
  revert E S1. generalize (upd w i n) as w1. generalize (n_hooks n) as hs. clear - IH.
  induction hs as [|h hs IHh]; intros w1 E S1; cbn [fold_left] in E.
  - assert (w1 = w') by congruence. now subst.
  - cbn [rbind] in E. destruct (update f w1 _ _ _ true) as [w2|e] eqn:U; [|rewrite fold_update_err in E; discriminate].
    apply (IHh w2); [exact E|]. intros j. rewrite (IH _ _ _ _ _ _ U j). apply S1.
Qed.
Lemma fold_bias_other f ls : forall hs w w', wired w ls -> (forall h, In h hs -> In h ls) ->
  fold_left (fun acc h => do w <- acc;
          update (S f) w (h_bias h) (n_scale (w (h_kernel h)) * n_scale (w (h_input h)))%Q (n_zp (w (h_bias h))) true) hs (Ok w) = Ok w' ->
  forall j, not_bias ls j -> w' j = w j.
Proof.
  induction hs as [|h hs IH]; intros w w' W SUB E j NB; cbn [fold_left] in E.
  - assert (w = w') by congruence. now subst.
  - cbn [rbind] in E. assert (HL : In h ls) by (apply SUB; now left).
    rewrite update_leaf in E by (apply (wi_leaf _ _ W), HL).
    match type of E with fold_left _ _ (Ok ?v) = _ => set (w1 := v) in E end.
    assert (H1 : forall j, n_hooks (w1 j) = n_hooks (w j)) by (apply upd_hooks; reflexivity).
    rewrite (IH w1 w' (wired_hooks _ _ _ H1 W) (fun h' H' => SUB h' (or_intror H')) E j NB).
    apply upd_other. exact (NB h HL).
Qed.
Definition updated (n : node) (s : Q) (z : Z) (rq : bool) : node := if rq then requantize (set_params n s z) else set_params n s z.

(** the invariant every reachable store satisfies *)
Record sound (ls : list hook) (w : world) : Prop := {
  so_good : forall j, good (w j);
  so_wired : wired w ls;
  so_bias : forall h, In h ls -> bias_ok w h }.

Lemma update_frame f ls w i s z rq : sound ls w -> not_bias ls i ->
  exists w', update (S (S f)) w i s z rq = Ok w' /\ sound ls w' /\ w' i = updated (w i) s z rq /\
    (forall j, j <> i -> not_bias ls j -> w' j = w j) /\ (forall j, skel (w' j) = skel (w j)).
Proof.
  intros [G W B] NB. destruct (update_keeps f ls w i s z rq G W B NB) as (w' & E & A1 & A2 & A3 & _ & _ & A6).
  exists w'. split; [exact E|]. split; [split; assumption|]. split; [|split; [exact A6|exact (update_skel _ _ _ _ _ _ _ E)]].
  cbn [update] in E. fold (updated (w i) s z rq) in E. set (n := updated (w i) s z rq) in *.
  assert (HN : n_hooks n = n_hooks (w i)) by (unfold n, updated; destruct rq; reflexivity).
  rewrite (fold_bias_other f ls (n_hooks n) (upd w i n) w' (wired_hooks _ _ _ (upd_hooks _ _ _ HN) W)) ; [apply upd_same| |exact E|exact NB].
  rewrite HN. intros h. apply (wi_closed _ _ W).
Qed.

(** the exported table is the one of the current parameters *)
Definition lut_sync (n : node) : Prop :=
  match n_lut n with
  | None => True
  | Some l => l_table l = create_LUT (l_q l) (l_fn l) (n_scale n) (n_zp n) (l_out_s l) (l_out_zp l) (Some (l_policy l))
  end.
Lemma requantize_sync n : lut_sync (requantize n).
Proof. unfold lut_sync, requantize. destruct n as [? ? ? ? ? [t|] [l|] ?]; cbn; reflexivity || exact I. Qed.

Definition params (n : node) : Q * Z := (n_scale n, n_zp n).
Definition vec (w : world) (l : list nat) : list (Q * Z) := map (fun i => params (w i)) l.
Lemma vec_ext w w' l : (forall i, In i l -> params (w i) = params (w' i)) -> vec w l = vec w' l.
Proof. intros H. apply map_ext_in. exact H. Qed.
Lemma updated_params n s z rq : params (updated n s z rq) = (s, z).
Proof. unfold updated. destruct rq; reflexivity. Qed.
Lemma good_updated n s z rq : good n -> good (updated n s z rq).
Proof. intros G. unfold updated. destruct rq; [apply requantize_ok, G|exact G]. Qed.

(** moves *)
Lemma move_frame f ls : forall ts w ds, sound ls w -> NoDup ts -> (forall i, In i ts -> not_bias ls i) ->
  (forall k, fair_draw (ds k)) -> (forall i, In i ts -> (0 < n_scale (w i))%Q) ->
  exists w', move (S (S f)) w ts ds = Ok w' /\ sound ls w' /\
    (forall i, In i ts -> (0 < n_scale (w' i))%Q /\ in_step (w' i) /\ lut_sync (w' i)) /\
    (forall j, ~ In j ts -> not_bias ls j -> w' j = w j) /\ (forall j, skel (w' j) = skel (w j)).
Proof.
  induction ts as [|i ts IH]; intros w ds SO ND NB FD P.
  - exists w. split; [reflexivity|]. split; [exact SO|]. split; [intros i []|]. split; reflexivity.
  - inversion ND as [|? ? NI ND']; subst. cbn [move]. unfold move_one.
    destruct (C34_scale (n_scale (w i)) (r_mag (ds O)) (r_sign (ds O)) (P i (or_introl eq_refl)) (proj1 (proj2 (FD O)))) as (s & ES & S1 & S2).
    assert (P0 := P i (or_introl eq_refl)).
    rewrite ES. cbn [rbind]. set (z := eq_zp _ _ _).
    destruct (update_frame f ls w i s z true SO (NB i (or_introl eq_refl))) as (w1 & E & SO1 & U1 & O1 & K1). rewrite E. cbn [rbind].
    destruct (IH w1 (fun k => ds (S k)) SO1 ND' (fun j H => NB j (or_intror H)) (fun k => FD (S k))) as (w2 & E2 & SO2 & T2 & O2 & K2).
    { intros j Hj. rewrite O1; [apply P; now right|congruence|apply NB; now right]. }
    exists w2. split; [exact E2|]. split; [exact SO2|]. split; [|split].
    + intros j [<- |Hj]; [|now apply T2]. rewrite (O2 i NI (NB i (or_introl eq_refl))), U1. unfold updated. split; [cbn; lra|].
      split; [apply requantize_ok, (so_good _ _ SO i)|apply requantize_sync].
    + intros j Nj NBj. rewrite O2 by (tauto || (intros C; apply Nj; now right)). apply O1; [intros ->; apply Nj; now left|exact NBj].
    + intros j. now rewrite K2.
Qed.

(** copies *)
Lemma copy_frame f ls rq : forall to from w, sound ls w -> length to = length from -> NoDup to -> (forall i, In i to -> not_bias ls i) ->
  (forall i, In i to -> ~ In i from) -> (forall i, In i from -> not_bias ls i) ->
  exists w', copy (S (S f)) w to from rq = Ok w' /\ sound ls w' /\ vec w' to = vec w from /\
    (forall i, In i to -> exists s z, w' i = updated (w i) s z rq) /\
    (forall j, ~ In j to -> not_bias ls j -> w' j = w j) /\ (forall j, skel (w' j) = skel (w j)).
Proof.
  induction to as [|t to IH]; intros [|g from] w SO L ND NB DJ NF; try discriminate.
  - exists w. split; [reflexivity|]. split; [exact SO|]. split; [reflexivity|]. split; [intros i []|]. split; reflexivity.
  - inversion ND as [|? ? NI ND']; subst. cbn [copy].
    destruct (update_frame f ls w t (n_scale (w g)) (n_zp (w g)) rq SO (NB t (or_introl eq_refl))) as (w1 & E & SO1 & U1 & O1 & K1).
    rewrite E. cbn [rbind].
    destruct (IH from w1 SO1) as (w2 & E2 & SO2 & V2 & T2 & O2 & K2); auto.
    { intros i H. apply NB. now right. }
    { intros i H C. exact (DJ i (or_intror H) (or_intror C)). }
    { intros i H. apply NF. now right. }
    exists w2. split; [exact E2|]. split; [exact SO2|]. split; [|split; [|split]].
    + cbn [vec map]. f_equal.
      * rewrite (O2 t NI (NB t (or_introl eq_refl))), U1. apply updated_params.
      * fold (vec w2 to). rewrite V2. fold (vec w from). apply vec_ext. intros i Hi. rewrite O1; [reflexivity| |apply NF; now right].
        intros ->. exact (DJ t (or_introl eq_refl) (or_intror Hi)).
    + intros i [<- |Hi].
      * exists (n_scale (w g)), (n_zp (w g)). rewrite (O2 t NI (NB t (or_introl eq_refl))). exact U1.
      * destruct (T2 i Hi) as (s & z & E3). exists s, z. rewrite E3. rewrite O1; [reflexivity| |apply NB; now right]. congruence.
    + intros j Nj NBj. rewrite O2 by (tauto || (intros C; apply Nj; now right)). apply O1; [intros ->; apply Nj; now left|exact NBj].
    + intros j. now rewrite K2.
Qed.

(** deep copies *)
Lemma deepcopy_old : forall ts w base j, (j < base)%nat -> deepcopy w base ts j = w j.
Proof. induction ts as [|i ts IH]; intros w base j H; [reflexivity|]. cbn [deepcopy]. rewrite IH by lia. apply upd_other. lia. Qed.
Lemma deepcopy_new : forall ts w base, (forall i, In i ts -> (i < base)%nat) -> vec (deepcopy w base ts) (seq base (length ts)) = vec w ts.
Proof.
  induction ts as [|i ts IH]; intros w base H; [reflexivity|]. cbn [deepcopy length seq vec map]. f_equal.
  - rewrite deepcopy_old by lia. now rewrite upd_same.
  - fold (vec (deepcopy (upd w base (w i)) (S base) ts) (seq (S base) (length ts))). rewrite IH by (intros j Hj; specialize (H j (or_intror Hj)); lia).
    apply vec_ext. intros j Hj. rewrite upd_other; [reflexivity|]. specialize (H j (or_intror Hj)). lia.
Qed.
Lemma deepcopy_any : forall ts w base j, exists i, deepcopy w base ts j = w i.
Proof.
  induction ts as [|i ts IH]; intros w base j; [now exists j|]. cbn [deepcopy]. destruct (IH (upd w base (w i)) (S base) j) as (k & ->).
  destruct (upd_cases w base k (w i)) as [[_ ->]|[_ ->]]; eauto.
Qed.
Lemma deepcopy_sound ls w base ts : sound ls w -> (forall h, In h ls -> (h_bias h < base /\ h_kernel h < base /\ h_input h < base)%nat) ->
  sound ls (deepcopy w base ts).
Proof.
  intros [G W B] ID. split.
  - intros j. destruct (deepcopy_any ts w base j) as (i & ->). apply G.
  - split.
    + intros h Hh. rewrite deepcopy_old by apply (ID h Hh). now apply (wi_leaf _ _ W).
    + intros h Hh. rewrite !deepcopy_old by apply (ID h Hh). now apply (wi_sub _ _ W).
    + intros j h Hh. destruct (deepcopy_any ts w base j) as (i & E). rewrite E in Hh. eapply (wi_closed _ _ W), Hh.
    + exact (wi_sep _ _ W).
  - intros h Hh. unfold bias_ok. rewrite !deepcopy_old by apply (ID h Hh). now apply B.
Qed.
