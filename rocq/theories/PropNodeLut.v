(** C33: look-up-table nodes. *)
From Verif Require Import Base BaseProofs DtypeModel QuantModel QuantProofs PropCore NodeModel PropNode.
From Coq Require Import Lqa.
Open Scope Z_scope.
Open Scope list_scope.

(** operations on one LUT: update of the input parameters, of the output parameters, of the policy *)
Inductive lop := LIn (s : Q) (z : Z) | LOut (s : Q) (z : Z) | LPol (p : nd Q).
Definition lexec (l : lut) (o : lop) : lut :=
  match o with LIn s z => lut_update_in l s z | LOut s z => lut_update_out l s z | LPol p => lut_set_policy l p end.
Definition lrun (l : lut) (os : list lop) : lut := fold_left lexec os l.

(** specification: the output parameters and policy last set in a history *)
Fixpoint last_out (d : Q * Z) (os : list lop) : Q * Z :=
  match os with [] => d | LOut s z :: r => last_out (s, z) r | _ :: r => last_out d r end.
Fixpoint last_pol (d : nd Q) (os : list lop) : nd Q :=
  match os with [] => d | LPol p :: r => last_pol p r | _ :: r => last_pol d r end.
Definition is_in (o : lop) : Prop := match o with LIn _ _ => True | _ => False end.

Lemma lrun_fixed os : forall l, l_q (lrun l os) = l_q l /\ l_fn (lrun l os) = l_fn l /\
  (l_out_s (lrun l os), l_out_zp (lrun l os)) = last_out (l_out_s l, l_out_zp l) os /\ l_policy (lrun l os) = last_pol (l_policy l) os.
Proof.
  induction os as [|o os IH]; intros l; [repeat split|]. cbn [lrun fold_left]. destruct (IH (lexec l o)) as (A & B & C & D).
  unfold lrun in *. rewrite A, B, C, D. destruct o; repeat split.
Qed.
Lemma lrun_table os : forall l, Forall (fun o => ~ is_in o) os -> l_table (lrun l os) = l_table l.
Proof.
  induction os as [|o os IH]; intros l F; [reflexivity|]. inversion F; subst. cbn [lrun fold_left]. unfold lrun in IH. rewrite IH by assumption.
  destruct o; [cbn in *; tauto|reflexivity|reflexivity].
Qed.

(** The table of a LUT with any history is the one built for the input parameters of the last input
    update and the output parameters and policy known at that moment; later changes are not reflected. *)
Theorem C33_table_of_last_input_update : forall q fn is iz os oz pre s z post, Forall (fun o => ~ is_in o) post ->
  let l0 := lut_new q fn is iz os oz in
  let out := last_out (os, oz) pre in
  l_table (lrun l0 (pre ++ LIn s z :: post)) = create_LUT q fn s z (fst out) (snd out) (Some (last_pol (l_policy l0) pre)).
Proof.
  intros q fn is iz os oz pre s z post F l0 out. unfold lrun. rewrite fold_left_app. cbn [fold_left].
  fold (lrun l0 pre). fold (lrun (lexec (lrun l0 pre) (LIn s z)) post). rewrite lrun_table by exact F.
  destruct (lrun_fixed pre l0) as (A & B & C & D). cbn [lexec lut_update_in lut_create l_table l_q l_fn l_in_s l_in_zp l_out_s l_out_zp l_policy].
  rewrite A, B, D. change (l_out_s l0, l_out_zp l0) with (os, oz) in C. unfold out. rewrite <- C. reflexivity.
Qed.
Theorem C33_output_and_policy_updates_ignored : forall q fn is iz os oz post, Forall (fun o => ~ is_in o) post ->
  lut_json (lrun (lut_new q fn is iz os oz) post) = lut_json (lut_new q fn is iz os oz).
Proof.
  intros. unfold lut_json, lut_offset. rewrite lrun_table by assumption. destruct (lrun_fixed post (lut_new q fn is iz os oz)) as (-> & _). reflexivity.
Qed.

(** A freshly built LUT applied to a code is quantize(fn(dequantize(code))), rounded to nearest. *)
Theorem C33_fresh_lookup : forall q fn is iz os oz v, within_int32 q -> in_dtype q v ->
  lut_call (lut_new q fn is iz os oz) v =
  Ok (nd_get (quantize q (scalar (fn (nd_get (dequantize (scalar v) iz is) []))) oz os None) []).
Proof.
  intros q fn is iz os oz v Hq [V1 V2]. unfold lut_call, lut_offset. cbn [l_q l_fn l_in_s l_in_zp l_out_s l_out_zp l_policy l_table lut_new lut_create].
  set (p := get_base_rounding _ os).
  assert (PS : nd_shape p = [Z.to_nat (gmax q + 1 - gmin q)]) by (unfold p, get_base_rounding; cbn; now rewrite float_activation_length).
  assert (K : (Z.to_nat (v - gmin q) < Z.to_nat (gmax q + 1 - gmin q))%nat) by lia.
  replace (v + - gmin q) with (Z.of_nat (Z.to_nat (v - gmin q))) by lia.
  pose proof (create_LUT_nth_policy q fn is iz os oz p _ PS K) as E.
  unfold py_index. rewrite create_LUT_length by exact PS.
  assert ((Z.of_nat (Z.to_nat (v - gmin q)) <? 0) = false) as -> by (apply Z.ltb_ge; lia).
  assert ((Z.of_nat (Z.to_nat (v - gmin q)) <? 0) = false) as X by (apply Z.ltb_ge; lia). rewrite X. clear X.
  assert ((Z.of_nat (Z.to_nat (gmax q + 1 - gmin q)) <=? Z.of_nat (Z.to_nat (v - gmin q))) = false) as -> by (apply Z.leb_gt; lia).
  cbn [orb]. rewrite Nat2Z.id. rewrite E. f_equal. rewrite quantize_none. unfold scalar. cbn [nd_get]. rewrite dequantize_get. cbn [nd_get].
  replace (gmin q + Z.of_nat (Z.to_nat (v - gmin q))) with v by lia.
  rewrite <- (base_rounding_nearest q oz os _ Hq). f_equal. unfold p, get_base_rounding, nd_of_list. cbn [nd_map nd_get hd].
  rewrite (float_activation_nth q fn is iz _ K). replace (gmin q + Z.of_nat (Z.to_nat (v - gmin q))) with v by lia. reflexivity.
Qed.

(** Rounding a LUT (adaround appends node.LUT to the tensors it optimises) never changes what is exported. *)
Theorem C33_rounding_a_lut_has_no_effect : forall fuel w i ps l, n_lut (w i) = Some l ->
  option_map lut_json (n_lut (run fuel w (map (fun p => OLutPolicy i p) ps) i)) = Some (lut_json l).
Proof.
  intros fuel w i ps. revert w. induction ps as [|p ps IH]; intros w l E; [cbn; now rewrite E|].
  cbn [map run fold_left exec]. rewrite E. cbn [option_map].
  apply (IH (upd w i (set_lut (w i) (Some (lut_set_policy l p)))) (lut_set_policy l p)). rewrite upd_same. reflexivity.
Qed.

(** Moving the activation's output node: in every network the quantizer builds the LUT of the bias-add node
    keeps the table computed for the old output parameters. *)
Theorem C33_output_node_update_ignored : forall input specs f os i j s z rq, good input -> in_step input -> Forall spec_ok specs ->
  let st := build_net input specs in let w := run (S (S f)) (w_nodes st) os in
  Forall (allowed (w_layers st)) os -> not_bias (w_layers st) i -> not_bias (w_layers st) j -> i <> j ->
  exists w', update (S (S f)) w j s z rq = Ok w' /\ n_scale (w' j) = s /\ n_zp (w' j) = z /\ n_lut (w' i) = n_lut (w i).
Proof.
  intros input specs f os i j s z rq G S0 F st w A NI NJ N.
  destruct (C32_updates_never_raise input specs f os j s z rq G S0 F A NJ) as (w' & E & E1 & E2 & E3).
  exists w'. split; [exact E|]. split; [exact E1|]. split; [exact E2|]. now rewrite (E3 i N NI).
Qed.
(** In the example network the table entry of code 13 (value 2) is 85, i.e. 2/3 at scale 1/128.  After the
    output node is updated to scale 1/64 the table still says 85, which now decodes to 85/64 > 1. *)
Theorem C33_output_update_refuted : exists w, 
  w = run 7 (w_nodes (build_net ex_input ex_specs)) [OUpdate 4 (1#64) 0] /\
  (exists l, n_lut (w 3%nat) = Some l /\ lut_call l 13 = Ok 85 /\ (dequant1 (n_zp (w 3%nat)) (n_scale (w 3%nat)) 13 == 2)%Q) /\
  n_scale (w 4%nat) = (1#64)%Q /\ (dequant1 (n_zp (w 4%nat)) (n_scale (w 4%nat)) 85 == 85#64)%Q.
Proof.
  eexists. split; [reflexivity|]. split; [eexists; split; [reflexivity|]; split; vm_compute; reflexivity|].
  split; vm_compute; reflexivity.
Qed.
(** And after an input update the policy is the one of the old inputs: the entry of code 0 is off by one. *)
Theorem C33_stale_policy_refuted : exists l l' v, l = lut_new int8 (fun x => x) (7#10) 0 1 0 /\ l' = lut_update_in l 1 0 /\
  lut_call l' v = Ok (v + 1) /\ lut_call (lut_new int8 (fun x => x) 1 0 1 0) v = Ok v.
Proof. eexists _, _, 1. split; [reflexivity|]. split; [reflexivity|]. split; vm_compute; reflexivity. Qed.
