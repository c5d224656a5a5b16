(** Properties C18-C22: LUT activation and ReLU layers, dispatch, sequential network. *)
From Verif Require Import Base BaseProofs DtypeModel QuantModel QuantProofs DtypeProofs LutModel LutProofs
  FcLayer EngineModel EngineProofs PropCore.
From Coq Require Import Lqa Qminmax.
Open Scope Z_scope.
Open Scope list_scope.

(** ** C18 *)
(** The specification: quantize(f(dequantize(q))). *)
Definition requantized (d : gdtype) (f : Q -> Q) (is : Q) (iz : Z) (os : Q) (oz : Z) (q : Z) : Z :=
  nd_get (quantize d (scalar (f (nd_get (dequantize (scalar q) iz is) []))) oz os None) [].
(** The two JSON forms converters/quantizer emit for the table of [f]. *)
Definition json_plain d f is iz os oz :=
  mklutj (Some (create_LUT d f is iz os oz None)) None (Some (- gmin d)).
Definition json_reduced d f is iz os oz depth m :=
  mklutj (Some (create_LUT d f is iz os oz None))
         (Some (serialize (mk_rlut (create_LUT d f is iz os oz None) depth m false))) (Some (- gmin d)).

Lemma table_nth d f is iz os oz q : in_dtype d q ->
  nth_error (create_LUT d f is iz os oz None) (Z.to_nat (q - gmin d)) = Some (requantized d f is iz os oz q).
Proof.
  intros [A B]. rewrite create_LUT_nth by lia. f_equal.
  unfold requantized. rewrite quantize_none. cbn [scalar nd_get dequantize nd_map].
  replace (gmin d + Z.of_nat (Z.to_nat (q - gmin d))) with q by lia. reflexivity.
Qed.
Lemma table_len d f is iz os oz : gmin d <= gmax d ->
  Z.of_nat (length (create_LUT d f is iz os oz None)) = gmax d + 1 - gmin d.
Proof. intros H. rewrite (create_LUT_length _ _ _ _ _ _ None I). lia. Qed.

Theorem C18_plain_table : forall d f is iz os oz codes,
  codes <> [] -> (forall q, In q codes -> in_dtype d q) ->
  (do l <- lut_from_node (Some (json_plain d f is iz os oz)); lut_infer l codes) =
  Ok (map (requantized d f is iz os oz) codes).
Proof.
  intros d f is iz os oz codes Hn H. cbn [rbind lut_from_node json_plain lj_reduced lj_table lj_offset].
  apply lut_infer_map; [exact Hn|]. intros q Hq. specialize (H q Hq).
  cbn [la_table la_offset lookup]. apply py_index_in_range; [destruct H; lia|].
  replace (q + - gmin d) with (q - gmin d) by lia. now apply table_nth.
Qed.
Theorem C18_reduced_table : forall d f is iz os oz depth m codes,
  codes <> [] -> (forall q, In q codes -> in_dtype d q) ->
  (do l <- lut_from_node (Some (json_reduced d f is iz os oz depth m)); lut_infer l codes) =
  Ok (map (requantized d f is iz os oz) codes).
Proof.
  intros d f is iz os oz depth m codes Hn H. cbn [rbind lut_from_node json_reduced lj_reduced lj_table lj_offset].
  apply lut_infer_map; [exact Hn|]. intros q Hq. specialize (H q Hq).
  cbn [la_table la_offset lookup]. apply reduced_lookup; [destruct H; lia|].
  replace (q + - gmin d) with (q - gmin d) by lia. now apply table_nth.
Qed.
(** Outside the dtype: the plain list wraps around once below, and raises beyond. *)
Theorem C18_plain_wraps_below : forall d f is iz os oz q,
  let n := gmax d + 1 - gmin d in
  gmin d - n <= q < gmin d ->
  (do l <- lut_from_node (Some (json_plain d f is iz os oz)); lut_infer l [q]) =
  Ok [requantized d f is iz os oz (q + n)].
Proof.
  intros d f is iz os oz q n H. cbn [rbind lut_from_node json_plain lj_reduced lj_table lj_offset].
  unfold lut_infer, lookup. cbn [la_table la_offset mapM].
  assert (L := table_len d f is iz os oz ltac:(lia)). fold n in L.
  rewrite py_index_wrap by (rewrite L; lia). rewrite L.
  rewrite (py_index_in_range _ _ (requantized d f is iz os oz (q + n))); [reflexivity|lia|].
  replace (q + - gmin d + n) with (q + n - gmin d) by lia. apply table_nth. unfold in_dtype. unfold n in *. lia.
Qed.
Theorem C18_plain_raises_outside : forall d f is iz os oz q,
  let n := gmax d + 1 - gmin d in
  gmin d <= gmax d -> (q < gmin d - n \/ gmax d < q) ->
  (do l <- lut_from_node (Some (json_plain d f is iz os oz)); lut_infer l [q]) = Err EIndexError.
Proof.
  intros d f is iz os oz q n Hd H. cbn [rbind lut_from_node json_plain lj_reduced lj_table lj_offset].
  unfold lut_infer, lookup. cbn [la_table la_offset mapM].
  assert (L := table_len d f is iz os oz Hd). fold n in L.
  rewrite py_index_out; [reflexivity|]. rewrite L. unfold n in *. lia.
Qed.
Theorem C18_reduced_saturates : forall d f is iz os oz depth m q,
  gmin d <= gmax d ->
  (do l <- lut_from_node (Some (json_reduced d f is iz os oz depth m)); lut_infer l [q]) =
  Ok [requantized d f is iz os oz (clamp (gmin d) (gmax d) q)].
Proof.
  intros d f is iz os oz depth m q Hd. cbn [rbind lut_from_node json_reduced lj_reduced lj_table lj_offset].
  unfold lut_infer, lookup. cbn [la_table la_offset mapM].
  assert (L := table_len d f is iz os oz Hd).
  rewrite deserialize_getitem, getitem_spec by (intros E; rewrite E in L; cbn in L; lia).
  rewrite L, clamp_clip by exact Hd.
  rewrite (py_index_in_range _ _ (requantized d f is iz os oz (clipZ (gmin d) (gmax d) q))); [reflexivity| |].
  - unfold clipZ. lia.
  - replace (clipZ 0 (gmax d + 1 - gmin d - 1) (q + - gmin d)) with (clipZ (gmin d) (gmax d) q - gmin d)
      by (unfold clipZ; lia).
    apply table_nth. apply clipZ_range. exact Hd.
Qed.
Theorem C18_missing_table : lut_from_node None = Err EValueError /\
  (forall l, lut_infer l [] = Err EValueError).
Proof. split; reflexivity. Qed.

Example C18_example :
  let f x := if Qlt_le_dec x 0 then 0%Q else x in
  (do l <- lut_from_node (Some (json_reduced int8 f (1#10) 3 (1#20) (-128) 4 1)); lut_infer l [-128; 3; 4; 50; 127]) =
  Ok [-128; -128; -126; -34; 120] /\
  (do l <- lut_from_node (Some (json_plain int8 f (1#10) 3 (1#20) (-128))); lut_infer l [-129]) = Ok [120].
Proof. vm_compute. split; reflexivity. Qed.

(** ** C19 *)
(** quantize(max(0, dequantize(x))) in int8 *)
Definition relu_ref (is : Q) (iz : Z) (os : Q) (oz : Z) (x : Z) : Z :=
  nd_get (quantize int8 (scalar (Qmax 0 (nd_get (dequantize (scalar x) iz is) []))) oz os None) [].

Theorem C19_relu_same_parameters : forall s zp x, (0 < s)%Q -> in_dtype int8 zp -> in_dtype int8 x ->
  relu_infer1 (mkrelu s zp s zp) x = relu_ref s zp s zp x /\ relu_infer1 (mkrelu s zp s zp) x = Z.max x zp.
Proof.
  intros s zp x Hs Hz Hx. assert (R : relu_infer1 (mkrelu s zp s zp) x = Z.max x zp).
  { apply relu_same; [lra|exact Hx|exact Hz]. }
  split; [|exact R]. rewrite R. unfold relu_ref. rewrite quantize_none. cbn [scalar nd_get dequantize nd_map].
  assert (F : fits_i32 int8) by (unfold fits_i32; simpl; lia).
  assert (W : forall q, in_dtype int8 q -> dequant1 zp s q = (inject_Z (q - zp) * s)%Q).
  { intros q Hq. apply (dequant1_nowrap int8); [exact F| |exact Hq]. unfold zp_nowrap, in_dtype in *; cbn [gmin gmax int8] in *; lia. }
  rewrite (W x Hx).
  assert (E : (Qmax 0 (inject_Z (x - zp) * s) == dequant1 zp s (Z.max x zp))%Q).
  { rewrite W by (unfold in_dtype in *; simpl in *; lia).
    destruct (Z_le_gt_dec zp x) as [A|A].
    - rewrite Z.max_l by lia. apply Q.max_r. apply Qmult_le_0_compat; [|lra].
      change 0%Q with (inject_Z 0). apply (proj1 (Zle_inj _ _)); lia.
    - rewrite Z.max_r by lia. rewrite Z.sub_diag.
      assert (0 <= inject_Z (zp - x))%Q by (change 0%Q with (inject_Z 0); apply (proj1 (Zle_inj _ _)); lia).
      rewrite inject_Z_minus in *. rewrite Q.max_l; [unfold inject_Z; lra|].
      assert (inject_Z x * s <= inject_Z zp * s)%Q by (apply Qmult_le_compat_r; lra). lra. }
  symmetry. transitivity (quant1 int8 zp s (dequant1 zp s (Z.max x zp))).
  - unfold quant1, q_round. f_equal. f_equal. apply Qfloor_comp. rewrite E. reflexivity.
  - apply quant1_dequant1; [exact F| |lra|unfold in_dt, in_dtype in *; simpl in *; lia].
    unfold zp_nowrap, in_dtype in *; cbn [gmin gmax int8] in *; lia.
Qed.

(** Equal zero points, any scales: within one code of the rounded reference, provided the
    real-valued result is inside the int8 range (otherwise the cast wraps). *)
Theorem C19_relu_same_zero_point : forall is os zp x, (0 < is)%Q -> (0 < os)%Q ->
  in_dtype int8 zp -> in_dtype int8 x ->
  (inject_Z zp + is / os * inject_Z (Z.max x zp - zp) <= 127)%Q ->
  Z.abs (relu_infer1 (mkrelu is zp os zp) x - relu_ref is zp os zp x) <= 1.
Proof.
  intros is os zp x Hi Ho Hz Hx H.
  unfold in_dtype in Hz, Hx; cbn [gmin gmax int8] in Hz, Hx.
  set (v := (inject_Z zp + is / os * inject_Z (Z.max x zp - zp))%Q) in *.
  assert (Hk : (0 < is / os)%Q) by (apply Qlt_shift_div_l; lra).
  assert (Hm : (0 <= inject_Z (Z.max x zp - zp))%Q) by (change 0%Q with (inject_Z 0); apply (proj1 (Zle_inj _ _)); lia).
  assert (Hv0 : (inject_Z zp <= v)%Q).
  { unfold v. assert (0 <= is / os * inject_Z (Z.max x zp - zp))%Q by (apply Qmult_le_0_compat; lra). lra. }
  assert (R : relu_infer1 (mkrelu is zp os zp) x = Qtrunc v).
  { unfold relu_infer1. cbn [re_in_s re_in_zp re_out_s re_out_zp]. rewrite (wrap_s_id 16 x) by lia. fold v.
    destruct (Qtrunc_bounds v) as [A B]. apply wrap_s_id; [lia|].
    assert (Qtrunc v <= 127 /\ -128 <= Qtrunc v); [|simpl; lia].
    assert (Z1 : (inject_Z (-128) <= inject_Z zp)%Q) by (apply (proj1 (Zle_inj _ _)); lia).
    destruct (Qlt_le_dec v 0) as [C|C].
    - destruct (B C) as [B1 B2]. split.
      + assert (Qtrunc v < 1); [|lia]. apply Zlt_inj. change (inject_Z 1) with 1%Q. lra.
      + apply Zle_inj. lra.
    - destruct (A C) as [A1 A2]. split.
      + apply Zle_inj. apply Qle_trans with v; [exact A1|exact H].
      + assert (-128 < Qtrunc v + 1); [|lia]. apply Zlt_inj. rewrite inject_Z_plus. change (inject_Z 1) with 1%Q.
        apply Qle_lt_trans with v; [lra|exact A2]. }
  assert (F : fits_i32 int8) by (unfold fits_i32; simpl; lia).
  assert (G : relu_ref is zp os zp x = clipZ (-128) 127 (Qfloor (v + (1#2)))).
  { unfold relu_ref. rewrite quantize_none. cbn [scalar nd_get dequantize nd_map].
    unfold quant1. rewrite (q_round_clip int8) by exact F. cbn [gmin gmax int8]. f_equal. apply Qfloor_comp.
    rewrite (dequant1_nowrap int8 zp is x F); [| |].
    2:{ unfold zp_nowrap; cbn [gmin gmax int8]; lia. } 2:{ unfold in_dt; simpl; lia. }
    unfold v. destruct (Z_le_gt_dec zp x) as [A|A].
    - rewrite Z.max_l by lia. rewrite Q.max_r.
      + field. lra.
      + rewrite Z.max_l in Hm by lia. apply Qmult_le_0_compat; lra.
    - rewrite Z.max_r by lia. rewrite Z.sub_diag. rewrite Q.max_l.
      + change (inject_Z 0) with 0%Q. field. lra.
      + assert (0 <= inject_Z (zp - x))%Q by (change 0%Q with (inject_Z 0); apply (proj1 (Zle_inj _ _)); lia).
        rewrite inject_Z_minus in *.
        assert (inject_Z x * is <= inject_Z zp * is)%Q by (apply Qmult_le_compat_r; lra). lra. }
  rewrite R, G.
  destruct (Qtrunc_bounds v) as [A B]. destruct (Qfloor_bounds (v + (1#2))) as [C D].
  assert (Hf : zp <= Qfloor (v + (1#2)) <= 127).
  { split.
    - apply Qfloor_ge. lra.
    - assert (Qfloor (v + (1#2)) < 128); [|lia]. apply Qfloor_lt. change (inject_Z 128) with (128#1). lra. }
  rewrite clipZ_id by lia.
  assert (N := Qtrunc_near v). apply Qabs_Qlt_condition in N. destruct N as [N1 N2].
  apply Z.abs_le. split.
  - assert (Qfloor (v + (1#2)) < Qtrunc v + 2); [|lia].
    apply Zlt_inj. rewrite inject_Z_plus. change (inject_Z 2) with 2%Q. lra.
  - assert (Qtrunc v < Qfloor (v + (1#2)) + 2); [|lia].
    apply Zlt_inj. rewrite inject_Z_plus. change (inject_Z 2) with 2%Q. lra.
Qed.
(** Different zero points: off by the zero point difference, not a rounding error. *)
Theorem C19_relu_zero_point_refuted : exists iz oz x, in_dtype int8 x /\
  relu_infer1 (mkrelu 1 iz 1 oz) x = 5 /\ relu_ref 1 iz 1 oz x = 15.
Proof. exists 0, 10, 5. vm_compute. intuition congruence. Qed.
(** Overflow: a large positive activation becomes negative. *)
Theorem C19_relu_wraps_refuted : exists is os x, in_dtype int8 x /\
  relu_infer1 (mkrelu is 0 os 0) x = -56 /\ relu_ref is 0 os 0 x = 127.
Proof. exists 2%Q, 1%Q, 100. vm_compute. intuition congruence. Qed.
Example C19_example : relu_infer1 (mkrelu (1#4) (-3) (1#2) (-3)) 20 = 8 /\ relu_ref (1#4) (-3) (1#2) (-3) 20 = 9.
Proof. vm_compute. split; reflexivity. Qed.

(** ** C20 *)
(** The specification: run x through the layers; [trace] holds the successive outputs. *)
Inductive runs {V} : list (layer V) -> V -> list V -> V -> Prop :=
| runs_nil x : runs [] x [] x
| runs_cons (l : layer V) ls x y trace z : l x = Ok y -> runs ls y trace z -> runs (l :: ls) x (y :: trace) z.

Lemma run_layers_runs {V} (ls : list (layer V)) x t z : runs ls x t z -> forall acc,
  run_layers ls x acc = (acc ++ t, Ok z).
Proof.
  induction 1 as [x|l ls x y t z E _ IH]; intros acc; simpl.
  - now rewrite app_nil_r.
  - rewrite E, IH, <- app_assoc. reflexivity.
Qed.
Lemma run_layers_runs_inv {V} (ls : list (layer V)) : forall x acc i z,
  run_layers ls x acc = (i, Ok z) -> exists t, i = acc ++ t /\ runs ls x t z.
Proof.
  induction ls as [|l ls IH]; intros x acc i z H; simpl in H.
  - injection H as <- <-. exists []. rewrite app_nil_r. split; constructor.
  - destruct (l x) as [y|e] eqn:E; [|discriminate].
    destruct (IH _ _ _ _ H) as (t & -> & R). exists (y :: t). split; [now rewrite <- app_assoc|]. econstructor; eauto.
Qed.

(** Networks with a quantization layer: infer returns z iff z is the composition; intermediates
    are exactly the layer outputs, whatever the object recorded before. *)
Theorem C20_infer_composes : forall V toi8 (n : seqnet V) x t z, sn_quant n = true ->
  (runs (sn_layers n) x t z <->
   seq_infer toi8 n x = (mkseq true (sn_in_s n) (sn_in_zp n) (sn_layers n) t, Ok z)).
Proof.
  intros V toi8 n x t z Hq. unfold seq_infer. rewrite Hq. split.
  - intros R. now rewrite (run_layers_runs _ _ _ _ R).
  - destruct (run_layers (sn_layers n) x []) as [i r] eqn:E. intros H. injection H as -> ->.
    apply run_layers_runs_inv in E as (t' & -> & R). exact R.
Qed.
Theorem C20_one_intermediate_per_layer : forall V (ls : list (layer V)) x t z,
  runs ls x t z -> length t = length ls /\ (ls <> [] -> last t z = z) /\ (ls = [] -> z = x).
Proof.
  intros V ls x t z R. induction R as [x|l ls x y t z E R (L & La & Ln)]; [intuition congruence|].
  split; [simpl; lia|]. split; [|discriminate]. intros _.
  destruct ls as [|l2 ls2].
  - inversion R; subst. reflexivity.
  - assert (H : last t z = z) by (apply La; discriminate).
    destruct t; [inversion R|]. exact H.
Qed.
(** A failing layer aborts the call with its exception; only earlier outputs are recorded. *)
Theorem C20_failing_layer_aborts : forall V toi8 (n : seqnet V) x before bad after t y e,
  sn_quant n = true -> sn_layers n = before ++ bad :: after ->
  runs before x t y -> bad y = Err e ->
  seq_infer toi8 n x = (mkseq true (sn_in_s n) (sn_in_zp n) (sn_layers n) t, Err e).
Proof.
  intros V toi8 n x before bad after t y e Hq Hl R Hb. unfold seq_infer. rewrite Hq, Hl.
  rewrite run_layers_app, (run_layers_runs _ _ _ _ R). simpl. rewrite Hb. reflexivity.
Qed.
(** Earlier calls never influence later ones: the results of a history of calls are the results
    of each call on the freshly built object. *)
Theorem C20_history_independent : forall V toi8 (n : seqnet V) xs,
  snd (run_calls toi8 n xs) = map (fun x => snd (seq_infer toi8 n x)) xs.
Proof.
  intros V toi8 n xs.
  assert (G : forall m, sn_quant m = sn_quant n -> sn_in_s m = sn_in_s n -> sn_in_zp m = sn_in_zp n ->
    sn_layers m = sn_layers n -> snd (run_calls toi8 m xs) = map (fun x => snd (seq_infer toi8 n x)) xs).
  { induction xs as [|x xs IH]; intros m A B C D; [reflexivity|]. cbn [run_calls map].
    assert (S : snd (seq_infer toi8 m x) = snd (seq_infer toi8 n x)).
    { unfold seq_infer. rewrite A, B, C, D. destruct (if sn_quant n then _ else _); [|reflexivity].
      destruct (run_layers (sn_layers n) a []); reflexivity. }
    assert (K : let m' := fst (seq_infer toi8 m x) in sn_quant m' = sn_quant n /\ sn_in_s m' = sn_in_s n /\
                sn_in_zp m' = sn_in_zp n /\ sn_layers m' = sn_layers n).
    { unfold seq_infer. rewrite A, B, C, D. destruct (if sn_quant n then _ else _); [|now cbn].
      destruct (run_layers (sn_layers n) a []); now cbn. }
    destruct (seq_infer toi8 m x) as [m' y] eqn:E. cbn in K, S. destruct K as (K1 & K2 & K3 & K4).
    specialize (IH m' K1 K2 K3 K4). destruct (run_calls toi8 m' xs) as [m'' ys]. cbn in IH |- *. now subst. }
  now apply G.
Qed.
(** Without a QUANT-named first operator the input is first converted with to_int8, using the
    input node's parameters (0 and null parameters replaced by zero point 0 and scale 1). *)
Theorem C20_legacy_networks_quantize_first : forall V toi8 (n : seqnet V) x zp s x0,
  sn_quant n = false ->
  zp = (match sn_in_zp n with Some z => z | None => 0 end) ->
  (match sn_in_s n with Some s' => ~ (s' == 0)%Q /\ s = s' | None => s = 1%Q end) ->
  toi8 x zp s = Ok x0 ->
  snd (seq_infer toi8 n x) = snd (seq_infer toi8 (mkseq true (sn_in_s n) (sn_in_zp n) (sn_layers n) []) x0).
Proof.
  intros V toi8 n x zp s x0 Hq -> Hs Ht. unfold seq_infer. rewrite Hq. cbn [sn_quant sn_in_s sn_in_zp sn_layers].
  assert (Z1 : or_Z (sn_in_zp n) 0 = match sn_in_zp n with Some z => z | None => 0 end).
  { destruct (sn_in_zp n) as [z|]; [|reflexivity]. simpl. destruct (Z.eqb_spec z 0); lia. }
  assert (S1 : or_Q (sn_in_s n) 1 = s).
  { destruct (sn_in_s n) as [q|]; [|now symmetry]. destruct Hs as [A ->]. simpl.
    destruct (Qeq_bool q 0) eqn:E; [apply Qeq_bool_iff in E; contradiction|reflexivity]. }
  rewrite Z1, S1, Ht. destruct (run_layers (sn_layers n) x0 []); reflexivity.
Qed.
Example C20_example :
  let n := mkseq true None None [(fun x : Z => Ok (x + 1)); (fun x => if x =? 5 then Err EValueError else Ok (2 * x))] [7; 7; 7] in
  runs (sn_layers n) 3 [4; 8] 8 /\
  snd (run_calls (fun x _ _ => Ok x) n [3; 4; 3]) = [Ok 8; Err EValueError; Ok 8].
Proof.
  split; [|reflexivity]. cbn [sn_layers]. econstructor; [reflexivity|]. econstructor; [reflexivity|]. constructor.
Qed.

(** ** C21 *)
(** [occurs p s]: p is a substring of s. *)
Definition occurs (p s : chars) : Prop := exists a b, s = a ++ p ++ b.
Notation str := chars_of.

(** The accepted names: the exact list, upper-cased. *)
Definition accepted (u : chars) : Prop :=
  In u [str "TANH"; str "TANHLUT"; str "QUANTIZE"; str "RELU"; str "LSTM"] \/
  (exists p, In p [str "FULLY_CONN"; str "LOGISTIC"; str "SIGMOIDLUT"; str "SOFTMAX"; str "DEQUANTIZE"] /\ occurs p u).
Theorem C21_accepts_exactly : forall op,
  (accepted (upper op) -> exists k, build_layer_kind op = Ok k) /\
  (~ accepted (upper op) -> build_layer_kind op = Err EValueError).
Proof.
  intros op. unfold build_layer_kind. set (u := upper op).
  assert (EX : forall n, In n [str "TANH"; str "TANHLUT"; str "QUANTIZE"; str "RELU"; str "LSTM"] ->
             chars_eqb u n = true -> accepted u).
  { intros n Hn E. apply chars_eqb_eq in E. left. now rewrite E. }
  assert (SX : forall p, In p [str "FULLY_CONN"; str "LOGISTIC"; str "SIGMOIDLUT"; str "SOFTMAX"; str "DEQUANTIZE"] ->
             contains p u = true -> accepted u).
  { intros p Hp E. apply contains_spec in E. right. exists p. split; [exact Hp|exact E]. }
  destruct (chars_eqb u (str "TANH")) eqn:E1; [split; [eauto|intros N; exfalso; apply N; eapply EX; [|exact E1]; simpl; intuition]|].
  destruct (chars_eqb u (str "TANHLUT")) eqn:E2; [split; [eauto|intros N; exfalso; apply N; eapply EX; [|exact E2]; simpl; intuition]|].
  destruct (contains (str "FULLY_CONN") u) eqn:E3; [split; [eauto|intros N; exfalso; apply N; eapply SX; [|exact E3]; simpl; intuition]|].
  destruct (contains (str "LOGISTIC") u) eqn:E4; [split; [eauto|intros N; exfalso; apply N; eapply SX; [|exact E4]; simpl; intuition]|].
  destruct (contains (str "SIGMOIDLUT") u) eqn:E5; [split; [eauto|intros N; exfalso; apply N; eapply SX; [|exact E5]; simpl; intuition]|].
  destruct (contains (str "SOFTMAX") u) eqn:E6; [split; [eauto|intros N; exfalso; apply N; eapply SX; [|exact E6]; simpl; intuition]|].
  destruct (chars_eqb u (str "QUANTIZE")) eqn:E7; [split; [eauto|intros N; exfalso; apply N; eapply EX; [|exact E7]; simpl; intuition]|].
  destruct (contains (str "DEQUANTIZE") u) eqn:E8; [split; [eauto|intros N; exfalso; apply N; eapply SX; [|exact E8]; simpl; intuition]|].
  destruct (chars_eqb u (str "RELU")) eqn:E9; [split; [eauto|intros N; exfalso; apply N; eapply EX; [|exact E9]; simpl; intuition]|].
  destruct (chars_eqb u (str "LSTM")) eqn:E10; [split; [eauto|intros N; exfalso; apply N; eapply EX; [|exact E10]; simpl; intuition]|].
  split; [|reflexivity]. intros [H|(p & Hp & H)].
  - exfalso. cbn [In] in H. destruct H as [H|[H|[H|[H|[H|[]]]]]]; symmetry in H; apply chars_eqb_eq in H; congruence.
  - exfalso. apply contains_spec in H. cbn [In] in Hp.
    destruct Hp as [Hp|[Hp|[Hp|[Hp|[Hp|[]]]]]]; subst p; congruence.
Qed.
Theorem C21_case_insensitive : forall a b, upper a = upper b -> build_layer_kind a = build_layer_kind b.
Proof. intros a b H. unfold build_layer_kind. now rewrite H. Qed.
(** Every name the quantizer (LayerIds, activation LUT ids) and converters emit, in any letter case. *)
Theorem C21_emitted_names : forall op k,
  In (upper op, k) [(str "QUANTIZE", KQuantize); (str "DEQUANTIZE", KDequantize);
    (str "FULLY_CONNECTED", KFullyConnected); (str "LSTM", KLSTM); (str "TANHLUT", KTanhLUT);
    (str "SIGMOIDLUT", KSigmoidLUT); (str "TANH", KTanh); (str "LOGISTIC", KSigmoid);
    (str "SOFTMAX", KSoftMax); (str "RELU", KRelu)] ->
  build_layer_kind op = Ok k.
Proof.
  intros op k H. unfold build_layer_kind. simpl in H.
  repeat (destruct H as [H|H]; [injection H as <- <-; reflexivity|]). contradiction.
Qed.
(** Every name containing DEQUANTIZE and none of the earlier substrings is a dequantize layer. *)
Theorem C21_dequantize_not_captured : forall op,
  occurs (str "DEQUANTIZE") (upper op) ->
  (forall p, In p [str "FULLY_CONN"; str "LOGISTIC"; str "SIGMOIDLUT"; str "SOFTMAX"] -> ~ occurs p (upper op)) ->
  build_layer_kind op = Ok KDequantize.
Proof.
  intros op H N. unfold build_layer_kind. set (u := upper op) in *.
  assert (C : forall p, In p [str "FULLY_CONN"; str "LOGISTIC"; str "SIGMOIDLUT"; str "SOFTMAX"] -> contains p u = false).
  { intros p Hp. destruct (contains p u) eqn:E; [|reflexivity]. apply contains_spec in E. exfalso. exact (N p Hp E). }
  rewrite !C by (simpl; intuition).
  assert (L : (10 <= length u)%nat).
  { destruct H as (a & b & ->). rewrite !app_length. simpl. lia. }
  assert (Ne : forall n, (length n < 10)%nat -> chars_eqb u n = false).
  { intros n Hn. destruct (chars_eqb u n) eqn:E; [|reflexivity]. apply chars_eqb_eq in E. rewrite E in L. lia. }
  rewrite !Ne by (vm_compute; lia).
  apply contains_spec in H. rewrite H. reflexivity.
Qed.
(** Activations other than the listed ones are emitted under their own name and rejected. *)
Theorem C21_unsupported_examples :
  build_layer_kind (str "ELU") = Err EValueError /\ build_layer_kind (str "RELU6") = Err EValueError /\
  build_layer_kind (str "SIGMOID") = Err EValueError /\ build_layer_kind (str "LINEAR") = Err EValueError.
Proof. vm_compute. repeat split. Qed.
(** The ONNX engine matches exact, case-sensitive names. *)
Theorem C21_onnx_exact : forall op, 
  (exists k, build_operator_kind op = Ok k) <->
  In op [str "QLinearAdd"; str "QLinearMatMul"; str "QuantizeLinear"; str "QLinearSigmoid"; str "SigmoidLUT";
         str "DequantizeLinear"; str "Softmax"; str "Tanh"; str "TanhLUT"].
Proof.
  intros op. split.
  - intros [k H]. unfold build_operator_kind in H.
    repeat match type of H with
    | (if chars_eqb op ?n then _ else _) = _ =>
        let E := fresh in destruct (chars_eqb op n) eqn:E; [apply chars_eqb_eq in E; rewrite E; simpl; tauto|clear E]
    end. discriminate.
  - intros H. cbn [In] in H.
    repeat (destruct H as [<-|H]; [eexists; reflexivity|]). contradiction.
Qed.

(** ** C22 *)
Definition known_engine (e : chars) : Prop := upper e = str "TFLITE" \/ upper e = str "ONNX".
Definition builds {O V} (b : builders O V) (e : chars) (op : jop O) (l : layer V) : Prop :=
  (upper e = str "TFLITE" -> build_layer b op = Ok l) /\ (upper e = str "ONNX" -> build_operator b op = Ok l).

Lemma get_engine_cases {O V} (b : builders O V) e :
  (upper e = str "TFLITE" /\ get_engine b e = Ok (build_layer b)) \/
  (upper e = str "ONNX" /\ get_engine b e = Ok (build_operator b)) \/
  (~ known_engine e /\ get_engine b e = Err EValueError).
Proof.
  unfold get_engine. destruct (chars_eqb (upper e) (str "TFLITE")) eqn:A.
  - apply chars_eqb_eq in A. tauto.
  - destruct (chars_eqb (upper e) (str "ONNX")) eqn:B; [apply chars_eqb_eq in B; tauto|].
    right; right. split; [|reflexivity]. intros [H|H]; apply chars_eqb_eq in H; congruence.
Qed.

(** Construction succeeds only for a known engine, present nodes and every operator buildable;
    the object holds exactly one layer per operator, in order. *)
Theorem C22_success_iff : forall O V (b : builders O V) net,
  (exists n, seq_init b net = Ok n) <->
  (known_engine (jt_engine net) /\ jt_graph net <> [] /\
   (exists i r, jt_input net = Some i :: r) /\ (exists o r, jt_output net = Some o :: r) /\
   (forall op, In op (jt_graph net) -> exists l, builds b (jt_engine net) op l)).
Proof.
  intros O V b net.
  assert (P0 : forall A (l : list A), py_index l 0 = match l with [] => Err EIndexError | a :: _ => Ok a end).
  { intros A [|a l]; [reflexivity|]. apply py_index_in_range; [lia|reflexivity]. }
  assert (BX : forall e op l, builds b e op l -> (upper e = str "TFLITE" -> build_layer b op = Ok l) /\
                                      (upper e = str "ONNX" -> build_operator b op = Ok l)) by (intros; assumption).
  unfold seq_init. rewrite !P0. split.
  - intros [n H]. destruct (jt_input net) as [|i ri]; [discriminate|]. cbn [rbind] in H.
    destruct (jt_output net) as [|o ro]; [discriminate|]. cbn [rbind] in H.
    destruct i as [i|]; [|discriminate]. destruct o as [o|]; [|discriminate].
    destruct (jt_graph net) as [|g gs] eqn:G; [discriminate|]. cbn [rbind] in H.
    destruct (get_engine_cases b (jt_engine net)) as [(E & X)|[(E & X)|(E & X)]]; rewrite X in H; cbn [rbind] in H; [| |discriminate].
    + destruct (mapM (build_layer b) (g :: gs)) as [ls|] eqn:M; [|discriminate].
      apply mapM_inv in M.
      split; [left; exact E|]. split; [discriminate|]. split; [eauto|]. split; [eauto|].
      intros op Hop. destruct (In_nth_error _ _ Hop) as [k Hk].
      clear - M Hk E. revert k Hk. induction M as [|x y l l' Hxy M IH]; intros k Hk; [destruct k; discriminate|].
      destruct k; [injection Hk as ->; exists y; split; intros; [assumption|rewrite E in *; discriminate]|exact (IH k Hk)].
    + destruct (mapM (build_operator b) (g :: gs)) as [ls|] eqn:M; [|discriminate].
      apply mapM_inv in M.
      split; [right; exact E|]. split; [discriminate|]. split; [eauto|]. split; [eauto|].
      intros op Hop. destruct (In_nth_error _ _ Hop) as [k Hk].
      clear - M Hk E. revert k Hk. induction M as [|x y l l' Hxy M IH]; intros k Hk; [destruct k; discriminate|].
      destruct k; [injection Hk as ->; exists y; split; intros; [rewrite E in *; discriminate|assumption]|exact (IH k Hk)].
  - intros (K & Gn & (i & ri & ->) & (o & ro & ->) & H). cbn [rbind].
    destruct (jt_graph net) as [|g gs] eqn:G; [congruence|]. cbn [rbind].
    destruct (get_engine_cases b (jt_engine net)) as [(E & X)|[(E & X)|(E & X)]]; rewrite X; cbn [rbind]; [| |tauto].
    + assert (M : exists ls, mapM (build_layer b) (g :: gs) = Ok ls).
      { clear - H E. induction (g :: gs) as [|x l IH]; [eexists; reflexivity|].
        destruct (H x (or_introl eq_refl)) as (lx & A & _). destruct IH as (ls & L); [intros; apply H; now right|].
        exists (lx :: ls). simpl. rewrite (A E), L. reflexivity. }
      destruct M as (ls & ->). eexists; reflexivity.
    + assert (M : exists ls, mapM (build_operator b) (g :: gs) = Ok ls).
      { clear - H E. induction (g :: gs) as [|x l IH]; [eexists; reflexivity|].
        destruct (H x (or_introl eq_refl)) as (lx & _ & A). destruct IH as (ls & L); [intros; apply H; now right|].
        exists (lx :: ls). simpl. rewrite (A E), L. reflexivity. }
      destruct M as (ls & ->). eexists; reflexivity.
Qed.
Lemma Forall2_weaken {A B} (P R : A -> B -> Prop) l l' : (forall a b, P a b -> R a b) -> Forall2 P l l' -> Forall2 R l l'.
Proof. intros H. induction 1; constructor; auto. Qed.
Theorem C22_layers_match_graph : forall O V (b : builders O V) net n, seq_init b net = Ok n ->
  Forall2 (builds b (jt_engine net)) (jt_graph net) (sn_layers n).
Proof.
  intros O V b net n H. unfold seq_init in H.
  destruct (py_index (jt_input net) 0) as [i|]; [|discriminate]. cbn [rbind] in H.
  destruct (py_index (jt_output net) 0) as [o|]; [|discriminate]. cbn [rbind] in H.
  destruct i as [i|]; [|discriminate]. destruct o as [o|]; [|discriminate].
  destruct (py_index (jt_graph net) 0); [|discriminate]. cbn [rbind] in H.
  destruct (get_engine_cases b (jt_engine net)) as [(E & X)|[(E & X)|(E & X)]]; rewrite X in H; cbn [rbind] in H; [| |discriminate].
  - destruct (mapM (build_layer b) (jt_graph net)) as [ls|] eqn:M; [|discriminate]. injection H as <-. cbn [sn_layers].
    apply mapM_inv in M. eapply Forall2_weaken; [|exact M]. intros op l A. split; [auto|rewrite E; discriminate].
  - destruct (mapM (build_operator b) (jt_graph net)) as [ls|] eqn:M; [|discriminate]. injection H as <-. cbn [sn_layers].
    apply mapM_inv in M. eapply Forall2_weaken; [|exact M]. intros op l A. split; [rewrite E; discriminate|auto].
Qed.
(** The first operator with an unknown type fails construction with ValueError, whatever follows. *)
Theorem C22_unknown_layer_rejected : forall O V (b : builders O V) net pre bad post i ri o ro,
  jt_input net = Some i :: ri -> jt_output net = Some o :: ro ->
  known_engine (jt_engine net) -> jt_graph net = pre ++ bad :: post ->
  (forall op, In op pre -> exists l, builds b (jt_engine net) op l) ->
  (upper (jt_engine net) = str "TFLITE" -> ~ accepted (upper (jo_type bad))) ->
  (upper (jt_engine net) = str "ONNX" -> build_operator_kind (jo_type bad) = Err EValueError) ->
  seq_init b net = Err EValueError.
Proof.
  intros O V b net pre bad post i ri o ro Hi Ho K G Hp Ht Hx. unfold seq_init. rewrite Hi, Ho.
  rewrite (py_index_in_range _ 0 (Some i)) by (lia || reflexivity).
  rewrite (py_index_in_range _ 0 (Some o)) by (lia || reflexivity). cbn [rbind].
  assert (exists g0, py_index (jt_graph net) 0 = Ok g0) as (g0 & ->).
  { rewrite G. destruct pre as [|p0 pr]; [exists bad|exists p0]; apply py_index_in_range; (lia || reflexivity). }
  cbn [rbind].
  assert (F : forall f : jop O -> res (layer V), (forall op, In op pre -> exists l, f op = Ok l) -> f bad = Err EValueError ->
              mapM f (jt_graph net) = Err EValueError).
  { intros f Hf Hb. rewrite G. clear - Hf Hb. induction pre as [|p pr IH]; simpl; [now rewrite Hb|].
    destruct (Hf p (or_introl eq_refl)) as [l ->]. cbn [rbind]. rewrite IH; [reflexivity|intros; apply Hf; now right]. }
  destruct (get_engine_cases b (jt_engine net)) as [(E & X)|[(E & X)|(E & X)]]; rewrite X; cbn [rbind]; [| |tauto].
  - rewrite F; [reflexivity| |].
    + intros op Hop. destruct (Hp op Hop) as (l & A & _). exists l. auto.
    + unfold build_layer. rewrite (proj2 (C21_accepts_exactly _) (Ht E)). reflexivity.
  - rewrite F; [reflexivity| |].
    + intros op Hop. destruct (Hp op Hop) as (l & _ & A). exists l. auto.
    + unfold build_operator. rewrite (Hx E). reflexivity.
Qed.
Theorem C22_unknown_engine_rejected : forall O V (b : builders O V) net g gs i ri o ro,
  jt_input net = Some i :: ri -> jt_output net = Some o :: ro -> jt_graph net = g :: gs ->
  ~ known_engine (jt_engine net) -> seq_init b net = Err EValueError.
Proof.
  intros O V b net g gs i ri o ro Hi Ho G K. unfold seq_init. rewrite Hi, Ho, G.
  rewrite (py_index_in_range _ 0 (Some i)) by (lia || reflexivity).
  rewrite (py_index_in_range _ 0 (Some o)) by (lia || reflexivity). cbn [rbind].
  rewrite (py_index_in_range _ 0 g) by (lia || reflexivity). cbn [rbind].
  destruct (get_engine_cases b (jt_engine net)) as [(E & X)|[(E & X)|(E & X)]]; rewrite X; [| |reflexivity]; exfalso; apply K; [left|right]; exact E.
Qed.
Theorem C22_missing_parts : forall O V (b : builders O V) net,
  (jt_input net = [] -> seq_init b net = Err EIndexError) /\
  (forall i ri, jt_input net = i :: ri -> jt_output net = [] -> seq_init b net = Err EIndexError) /\
  (forall ri o ro, jt_input net = None :: ri -> jt_output net = o :: ro -> seq_init b net = Err EValueError) /\
  (forall i ri ro, jt_input net = i :: ri -> jt_output net = None :: ro -> seq_init b net = Err EValueError) /\
  (forall i ri o ro, jt_input net = Some i :: ri -> jt_output net = Some o :: ro -> jt_graph net = [] ->
     seq_init b net = Err EIndexError).
Proof.
  intros O V b net. unfold seq_init. repeat split; intros; repeat match goal with H : _ = _ |- _ => rewrite H; clear H end;
    repeat (rewrite (py_index_in_range (_ :: _) 0 _ (Z.le_refl 0) eq_refl)); cbn [rbind]; try reflexivity.
  destruct i; reflexivity.
Qed.
Example C22_example :
  let b := mkbuilders (V := Z) (fun k (c : Z) => Ok (fun x => Ok (x + c))) (fun k c => Ok (fun x => Ok (x * c))) in
  let nd := Some (mkjnode None None) in
  let g t := mkjnet (str "TfLite") [mkjop (str "quantize") (str "q") 1; mkjop t (str "x") 2] [nd] [nd] in
  (exists n, seq_init b (g (str "fully_connected")) = Ok n /\ snd (seq_infer (fun x _ _ => Ok x) n 5) = Ok 8) /\
  seq_init b (g (str "ELU")) = Err EValueError /\
  accepted (upper (str "fully_connected")).
Proof.
  split; [eexists; split; [reflexivity|vm_compute; reflexivity]|]. split; [reflexivity|].
  right. exists (str "FULLY_CONN"). split; [simpl; intuition|]. exists [], (str "ECTED"). reflexivity.
Qed.
