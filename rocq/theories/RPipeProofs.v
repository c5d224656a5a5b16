(** Lemmas for PropRPipe.v *)
From Verif Require Import Base BaseProofs DtypeModel DtypeProofs QuantModel QuantProofs LutModel LutProofs FcModel FcProofs FcLayer
  EngineModel EngineProofs DistModel DistProofs BuildModel PipeModel PropCore PropFc PropEngine PropDist PropNodeLut PropRelu PipeSpec PipeProofs RPipeSpec.
From Verif Require NodeModel.
From Coq Require Import Lqa Qminmax.
Open Scope Z_scope.
Open Scope list_scope.

(** ** Saturation *)
Lemma excess_nonneg n vs : (0 <= excess n vs)%Q.
Proof.
  unfold excess. induction vs as [|v vs IH]; cbn [map fold_right]; [lra|]. eapply Qle_trans; [exact IH|apply Q.le_max_r].
Qed.
Lemma excess_in n vs v : In v vs -> (v - top n <= excess n vs)%Q /\ (bottom n - v <= excess n vs)%Q.
Proof.
  intros H.
  assert (X : (Qmax (v - top n) (bottom n - v) <= excess n vs)%Q).
  { apply fold_max_in. apply in_map_iff. exists v. split; [reflexivity|exact H]. }
  pose proof (Q.le_max_l (v - top n) (bottom n - v)). pose proof (Q.le_max_r (v - top n) (bottom n - v)). split; lra.
Qed.
(** a real limited to [lo, hi] *)
Lemma limit_clamp s z q v : (0 < s)%Q -> gmin q <= gmax q ->
  let t := (s * inject_Z (clamp (gmin q) (gmax q) v - z))%Q in
  let u := (s * inject_Z (v - z))%Q in
  let lo := (s * inject_Z (gmin q - z))%Q in let hi := (s * inject_Z (gmax q - z))%Q in
  ((u < lo)%Q /\ (t == lo)%Q) \/ ((hi < u)%Q /\ (t == hi)%Q) \/ ((lo <= u <= hi)%Q /\ (t == u)%Q).
Proof.
  intros P G. cbv zeta. unfold clamp.
  assert (M : forall a b, a < b -> (s * inject_Z (a - z) < s * inject_Z (b - z))%Q).
  { intros a b H. apply Qmult_lt_l; [exact P|]. apply (proj1 (Zlt_inj _ _)). lia. }
  assert (ML : forall a b, a <= b -> (s * inject_Z (a - z) <= s * inject_Z (b - z))%Q).
  { intros a b H. apply Qmult_le_l; [exact P|]. apply (proj1 (Zle_inj _ _)). lia. }
  destruct (v <? gmin q) eqn:A; [apply Z.ltb_lt in A; left; split; [apply M, A|reflexivity]|].
  apply Z.ltb_ge in A. destruct (gmax q <? v) eqn:B; [apply Z.ltb_lt in B; right; left; split; [apply M, B|reflexivity]|].
  apply Z.ltb_ge in B. right; right. split; [split; apply ML; assumption|reflexivity].
Qed.
Lemma clamp_sat s z q v x e m : (0 < s)%Q -> gmin q <= gmax q ->
  (Qabs (s * inject_Z (v - z) - x) <= e)%Q -> (e <= m)%Q ->
  (x - s * inject_Z (gmax q - z) <= m)%Q -> (s * inject_Z (gmin q - z) - x <= m)%Q ->
  (Qabs (s * inject_Z (clamp (gmin q) (gmax q) v - z) - x) <= m)%Q.
Proof.
  intros P G H E1 E2 E3. pose proof (limit_clamp s z q v P G) as C. cbv zeta in C.
  apply Qabs_Qle_condition in H. apply Qabs_Qle_condition.
  destruct C as [[C1 C2]|[[C1 C2]|[C1 C2]]]; rewrite C2; split; lra.
Qed.
Lemma clamp_relu s z q v x e m : (0 < s)%Q -> gmin q <= z <= gmax q ->
  (Qabs (s * inject_Z (v - z) - x) <= e)%Q -> (e <= m)%Q ->
  (relu x - s * inject_Z (gmax q - z) <= m)%Q -> (- (s * inject_Z (gmin q - z)) <= m)%Q ->
  (Qabs (s * inject_Z (clamp (gmin q) (gmax q) v - z) - relu x) <= m)%Q.
Proof.
  intros P G H E1 E2 E3. pose proof (limit_clamp s z q v P ltac:(lia)) as C. cbv zeta in C.
  assert (B : (s * inject_Z (gmin q - z) <= 0)%Q).
  { setoid_replace 0%Q with (s * inject_Z 0)%Q by (change (inject_Z 0) with 0%Q; ring). apply Qmult_le_l; [exact P|]. apply (proj1 (Zle_inj _ _)). lia. }
  apply Qabs_Qle_condition in H. apply Qabs_Qle_condition. unfold relu in *.
  destruct (Q.max_spec x 0) as [[X1 X2]|[X1 X2]]; rewrite X2 in E2 |- *;
  destruct C as [[C1 C2]|[[C1 C2]|[C1 C2]]]; rewrite C2; split; lra.
Qed.
Lemma clamp_relu6 s z q v x e m : (0 < s)%Q -> gmin q <= z <= gmax q ->
  (Qabs (s * inject_Z (v - z) - x) <= e)%Q -> (e <= m)%Q ->
  (relu6 x - s * inject_Z (gmax q - z) <= m)%Q -> (- (s * inject_Z (gmin q - z)) <= m)%Q -> (s * inject_Z (gmax q - z) - 6 <= m)%Q ->
  (Qabs (s * inject_Z (clamp (gmin q) (gmax q) v - z) - relu6 x) <= m)%Q.
Proof.
  intros P G H E1 E2 E3 E4. pose proof (limit_clamp s z q v P ltac:(lia)) as C. cbv zeta in C.
  assert (B : (s * inject_Z (gmin q - z) <= 0)%Q).
  { setoid_replace 0%Q with (s * inject_Z 0)%Q by (change (inject_Z 0) with 0%Q; ring). apply Qmult_le_l; [exact P|]. apply (proj1 (Zle_inj _ _)). lia. }
  apply Qabs_Qle_condition in H. apply Qabs_Qle_condition. unfold relu6 in *.
  destruct (Q.max_spec x 0) as [[X1 X2]|[X1 X2]]; rewrite X2 in E2 |- *;
  match goal with |- context [Qmin ?u 6] => destruct (Q.min_spec u 6) as [[Y1 Y2]|[Y1 Y2]]; rewrite Y2 in E2 |- * end;
  destruct C as [[C1 C2]|[[C1 C2]|[C1 C2]]]; rewrite C2; split; lra.
Qed.

(** fc_row without the assumption that the result fits *)
Lemma fc_row_raw si zx sk so zo d W bias l xq x ex :
  (0 < si)%Q -> (0 < sk)%Q -> (0 < so)%Q -> (0 <= ex)%Q ->
  fc_build si zx sk 0 W bias so zo d = Ok l -> good_shapes W bias xq ->
  narrow d -> in_dtype d zo -> (1 # 1000000 <= si * sk / so)%Q -> length x = length xq ->
  (forall i, (i < length x)%nat -> (Qabs (si * inject_Z (nth i xq 0%Z - zx) - nth i x 0) <= ex)%Q) ->
  exists y, fc_infer l (T1 xq) = Ok (T1 y) /\ length y = length W /\ (forall v, In v y -> in_dtype d v) /\
  forall j (w : list Q) (b ew eb : Q), (j < length W)%nat -> (0 <= ew)%Q ->
    (forall i, (i < length x)%nat -> (Qabs (sk * inject_Z (nth i (nth j W []) 0%Z) - nth i w 0) <= ew)%Q) ->
    (Qabs (si * sk * inject_Z (nth j bias 0%Z) - b) <= eb)%Q ->
    Z.abs (exact_acc zx 0 xq (nth j W []) (nth j bias 0)) <= 2 ^ 31 ->
    exists v, nth j y 0 = clamp (gmin d) (gmax d) v /\
    (Qabs (so * inject_Z (v - zo) - dense x w b) <=
       sumQ_upto (length x) (fun i => ex * Qabs (nth i w 0) + ew * Qabs (nth i x 0) + ex * ew)
       + eb + so * (1#2) + si * sk)%Q.
Proof.
  intros Psi Psk Pso Pex Hb Hs N Hzo HM Lx Hx. pose proof N as (N1 & N2 & N3).
  assert (Hz : Z.abs zo <= 2 ^ 62) by (unfold within_int32, in_dtype in *; lia).
  destruct (C15_requantization si zx sk 0 W bias so zo d l xq Hb Hs ltac:(lia) Hz HM) as (y & Y1 & Y2 & Y3).
  exists y. split; [exact Y1|]. split; [exact Y2|]. split.
  { pose proof (C16_range si zx sk 0 W bias so zo d l (T1 xq) (T1 y) Hb ltac:(lia) Y1) as R. exact R. }
  intros j w b ew eb Hj Pew Hw Hbb Hacc.
  destruct (Y3 j Hj Hacc) as (v & Hv & Ev). set (acc := exact_acc zx 0 xq (nth j W []) (nth j bias 0)) in *.
  exists v. split; [exact Hv|]. set (M := (si * sk / so)%Q) in *.
  assert (MS : (so * M == si * sk)%Q) by (unfold M; field; lra).
  assert (D := acc_close si zx sk 0 xq (nth j W []) (nth j bias 0) x w b ex ew eb Pex Pew Lx Hx).
  fold acc in D. specialize (D ltac:(intros i Hi; rewrite Z.sub_0_r; apply Hw, Hi) Hbb).
  set (A := sumQ_upto (length x) _) in *.
  assert (PM : (0 < si * sk)%Q) by nra.
  setoid_replace (so * inject_Z (v - zo) - dense x w b)%Q
      with (so * (inject_Z v - (inject_Z zo + M * inject_Z acc)) + (si * sk * inject_Z acc - dense x w b))%Q
      by (rewrite <- MS, inject_Z_minus; ring).
  eapply Qle_trans; [apply Qabs_triangle|].
  rewrite Qabs_Qmult, (Qabs_pos so) by lra.
  assert (F : (so * Qabs (inject_Z v - (inject_Z zo + M * inject_Z acc)) <= so * (1#2) + si * sk * (inject_Z (Z.abs acc) * u31))%Q).
  { apply Qle_trans with (so * ((1#2) + inject_Z (Z.abs acc) * (M * u31)))%Q.
    - apply Qmult_le_l; [exact Pso|exact Ev].
    - rewrite <- MS. apply Qle_lteq. right. ring. }
  assert (U : (inject_Z (Z.abs acc) * u31 <= 1)%Q).
  { apply Qle_trans with (inject_Z (2 ^ 31) * u31)%Q; [|discriminate].
    apply Qmult_le_compat_r; [apply (proj1 (Zle_inj _ _)); exact Hacc|discriminate]. }
  assert (U' : (si * sk * (inject_Z (Z.abs acc) * u31) <= si * sk * 1)%Q) by (apply Qmult_le_l; assumption).
  lra.
Qed.

(** quantizing a value known up to e, with saturation *)
Lemma quant1_sat q s z x x' e m : narrow q -> (0 < s)%Q -> (Qabs (x' - x) <= e)%Q -> (e + s * (1#2) <= m)%Q ->
  (x - s * inject_Z (gmax q - z) <= m)%Q -> (s * inject_Z (gmin q - z) - x <= m)%Q ->
  in_dtype q (quant1 q z s x') /\ (Qabs (s * inject_Z (quant1 q z s x' - z) - x) <= m)%Q.
Proof.
  intros (N1 & N2 & N3) P H E1 E2 E3. unfold quant1. rewrite q_round_clip by exact N1. split; [apply clipZ_range; lia|].
  rewrite <- clamp_clip by lia. eapply clamp_sat; [exact P|lia| |exact E1|exact E2|exact E3].
  destruct (Qfloor_bounds (x' / s + inject_Z z + (1#2))) as [F1 F2]. set (v := Qfloor _) in *.
  setoid_replace (s * inject_Z (v - z) - x)%Q with ((x' - x) + s * (inject_Z v - (x' / s + inject_Z z)))%Q
    by (rewrite inject_Z_minus; field; lra).
  eapply Qle_trans; [apply Qabs_triangle|]. apply Qplus_le_compat; [exact H|].
  rewrite Qabs_Qmult, (Qabs_pos s) by lra. apply Qmult_le_l; [exact P|]. apply Qabs_Qle_condition. split; lra.
Qed.

(** ** What the quantizer exported for one layer *)
Record rexport (l : kdense) (qk q qb : gdtype) (sym : bool) (inp : pnode) (ops : list (jop pbody)) (out : pnode) : Prop := {
  re_nodes : exists sk m ba, (0 < sk)%Q /\
      Forall2 (Forall2 (fun c x => in_dtype qk c /\ (Qabs (sk * inject_Z c - x) <= if sym then sk * (1#2) else sk)%Q)) m (kd_w l) /\
      parse_dtype (pn_dtype ba) = Ok q /\
      let k := mkpn sk 0 (grepr qk) [length (kd_w l); width (kd_w l)] (PMat m) None in
      let b := quant_bias qb (pn_scale inp) sk (kd_b l) in
      if is_table l then
        exists os oz sh, let o := mkpn os oz (grepr q) sh PNone None in
          let ba' := attach_lut ba q (kd_fn l) os oz in
          out = o /\
          ops = [fc_oper l inp k b ba'; mkjop (upper (kd_act l) ++ str "LUT") (upper (kd_act l) ++ str "LUT") (mkpb [ba'] [o])]
      else out = ba /\ ops = [fc_oper l inp k b ba] }.

Lemma relu_facts l : relu_act l -> is_table l = false /\ mem (upper (kd_act l)) SKIP_FUNCTIONS = true.
Proof. unfold is_table. intros [-> | ->]; repeat split. Qed.

Lemma pipe_dense_inv c l inp data d qk q qb n ops out data' :
  layer_cfg c (kd_name l) = CDense d -> good_cfg d qk q qb -> plain_act l \/ table_act l \/ relu_act l -> layer_shaped n l ->
  (forall r, In r data -> length r = n) ->
  pipe_dense (layer_cfg c (kd_name l)) l inp data = Ok (ops, out, data') ->
  data' = map (float_layer l) data /\ rexport l qk q qb (d_sym d) inp ops out.
Proof.
  intros EC G HA Sh LD. rewrite EC. destruct G as [Gopt Gk Ga Gba Gb Nk N Nb Gpos Gsym].
  assert (PA : map (preact l) data = map (affine l) data).
  { apply map_ext_in. intros r Hr. apply (preact_affine n); [exact Sh|apply LD, Hr]. }
  destruct (quant_kernel_ok qk (d_sym d) (kd_w l) Nk Gpos Gsym (kd_w_ne n l Sh)) as (k & sk & m & EK & Ek & Psk & FM).
  unfold pipe_dense. rewrite Gk, Ga, Gba, Gb. cbn [rbind]. rewrite EK. cbn [rbind]. rewrite PA, Gopt.
  destruct (quant_bias_add q (kd_act l) data (map (affine l) data)) as [ba|] eqn:EB; [|discriminate]. cbn [rbind].
  assert (PBA : parse_dtype (pn_dtype ba) = Ok q).
  { unfold quant_bias_add in EB. destruct (calibrate _) as [dd|]; [|discriminate]. cbn [rbind] in EB.
    destruct (fused_trim _ _) as [d'|]; [|discriminate]. cbn [rbind] in EB.
    destruct (dist_quantize _ _ _ _ _) as [sz|]; [|discriminate]. cbn [rbind] in EB.
    match type of EB with Ok ?a = _ => assert (X : ba = a) by congruence end. rewrite X. cbn [pn_dtype].
    apply C06_str_roundtrip in Gba. apply Gba. }
  unfold quant_activation.
  assert (T : (is_table l = false /\ mem (upper (kd_act l)) SKIP_FUNCTIONS = true) \/ table_act l).
  { destruct HA as [H|[H|H]]; [left|right; exact H|left]; [apply plain_facts in H; tauto|apply relu_facts, H]. }
  destruct T as [[T1 T2]|HT].
  - rewrite T2. cbn [rbind]. intros E.
    match type of E with Ok (?a, ?b, ?c') = _ => assert (X1 : ops = a) by congruence; assert (X2 : out = b) by congruence; assert (X3 : data' = c') by congruence end.
    clear E. subst ops out data'. split.
    + apply map_ext. intros x. unfold float_layer. now rewrite T1.
    + constructor. exists sk, m, ba. split; [exact Psk|]. split; [exact FM|]. split; [exact PBA|]. cbv zeta. rewrite T1. split; [reflexivity|].
      rewrite Ek. reflexivity.
  - destruct (table_facts l HT) as (T1 & T2 & T3 & _). rewrite T2, T3.
    assert (FA : map (map (kd_fn l)) (map (affine l) data) = map (float_layer l) data).
    { rewrite map_map. apply map_ext. intros x. unfold float_layer. now rewrite T1. }
    rewrite FA. destruct (calibrate _) as [dd|]; [|discriminate]. cbn [rbind].
    destruct (dist_quantize _ _ _ _ _) as [[os oz]|]; [|discriminate]. cbn [rbind fst snd]. intros E.
    match type of E with Ok (?a, ?b, ?c') = _ => assert (X1 : ops = a) by congruence; assert (X2 : out = b) by congruence; assert (X3 : data' = c') by congruence end.
    clear E. subst ops out data'. split; [reflexivity|].
    constructor. exists sk, m, ba. split; [exact Psk|]. split; [exact FM|]. split; [exact PBA|]. cbv zeta. rewrite T1.
    exists os, oz, [width (map (float_layer l) data)]. split; [reflexivity|]. rewrite Ek. reflexivity.
Qed.

(** ** One layer in the engine *)
Lemma top_eq n q : parse_dtype (pn_dtype n) = Ok q -> top n = (pn_scale n * inject_Z (gmax q - pn_zp n))%Q.
Proof. intros E. unfold top. now rewrite E. Qed.
Lemma bottom_eq n q : parse_dtype (pn_dtype n) = Ok q -> bottom n = (pn_scale n * inject_Z (gmin q - pn_zp n))%Q.
Proof. intros E. unfold bottom. now rewrite E. Qed.
Lemma layer_out_length l x : length (layer_out l x) = kd_units l.
Proof. unfold layer_out. rewrite map_length. apply affine_length. Qed.
Lemma layer_out_nth l x j : (j < kd_units l)%nat -> nth j (layer_out l x) 0%Q = act_fn l (nth j (affine l x) 0%Q).
Proof.
  intros H. unfold layer_out. rewrite (nth_indep _ 0%Q (act_fn l 0%Q)) by (rewrite map_length, affine_length; exact H). apply map_nth.
Qed.
Lemma Qmax_lub' a b m : (Qmax a b <= m)%Q -> (a <= m)%Q /\ (b <= m)%Q.
Proof. intros H. pose proof (Q.le_max_l a b). pose proof (Q.le_max_r a b). split; lra. Qed.

Lemma rdense_step c L D l qk q qb d qi inp ops out n :
  layer_cfg c (kd_name l) = CDense d -> good_cfg d qk q qb -> plain_act l \/ table_act l \/ relu_act l -> layer_shaped n l ->
  node_ok inp qi -> rexport l qk q qb (d_sym d) inp ops out -> Forall op_ok ops ->
  (table_act l -> lipschitz L D l) ->
  exists lys gs, mapM (build_layer ie_builders) ops = Ok lys /\ Forall2 rowwise lys gs /\ node_ok out q /\
    forall x xq e, near inp qi e x xq -> length x = n ->
      exists yq, chain gs xq yq /\ near out q (rerr c L D [l] ops x e) (layer_out l x) yq.
Proof.
  intros EC G HA Sh NI [(sk & m & ba & Psk & FM & PBA & HE)] OK LIP.
  pose proof Sh as (Hn & Hu & LK & LR & _). destruct G as [Gopt Gk Ga Gba Gb Nk N Nb Gpos Gsym].
  set (k := mkpn sk 0 (grepr qk) [length (kd_w l); width (kd_w l)] (PMat m) None) in *.
  set (b := quant_bias qb (pn_scale inp) sk (kd_b l)) in *. cbv zeta in HE. fold k b in HE.
  set (si := pn_scale inp) in *. set (so := pn_scale ba) in *.
  assert (Psi : (0 < si)%Q) by apply (no_pos _ _ NI).
  assert (Pii : (0 < si * sk)%Q) by nra.
  assert (LM : length m = kd_units l).
  { rewrite <- (kd_w_length l). clear -FM. induction FM; cbn; congruence. }
  assert (MJ : forall j, (j < kd_units l)%nat ->
     Forall2 (fun c x => in_dtype qk c /\ (Qabs (sk * inject_Z c - x) <= if d_sym d then sk * (1#2) else sk)%Q) (nth j m []) (column j (kd_kernel l))).
  { intros j Hj. rewrite <- (kd_w_nth l j []) by exact Hj. clear -FM Hj LM. 
    rewrite <- LM in Hj. revert j Hj. clear LM. induction FM as [|r w m ws H _ IH]; intros j Hj; [cbn in Hj; lia|].
    destruct j as [|j]; [exact H|]. apply IH. cbn in Hj. lia. }
  assert (LMJ : forall j, (j < kd_units l)%nat -> length (nth j m []) = n).
  { intros j Hj. specialize (MJ j Hj). apply F2_length in MJ. rewrite MJ. unfold column. now rewrite map_length. }
  assert (WM : width m = n).
  { unfold width. rewrite <- (LMJ 0%nat Hu). destruct m; reflexivity. }
  (* the fully connected operator: the code is the clamp of a code near the pre-activation *)
  assert (FC : forall ba', pn_scale ba' = so -> pn_zp ba' = pn_zp ba -> node_ok ba' q -> fc_op_ok (fc_oper l inp k b ba') ->
    exists ly lf, build_layer ie_builders (fc_oper l inp k b ba') = Ok ly /\ rowwise ly (g_fc lf) /\
      forall x xq e, near inp qi e x xq -> length x = n ->
      exists yq, g_fc lf xq = Ok yq /\ length yq = kd_units l /\ (forall v, In v yq -> in_dtype q v) /\
        forall j, (j < kd_units l)%nat -> exists v, nth j yq 0 = clamp (gmin q) (gmax q) v /\
          (Qabs (so * inject_Z (v - pn_zp ba) - nth j (affine l x) 0%Q) <= fc_bound (d_sym d) l si sk so x e)%Q).
  { intros ba' S1 S2 NB' OKF.
    assert (Pso : (0 < so)%Q) by (rewrite <- S1; apply (no_pos _ _ NB')).
    assert (PK : parse_dtype (grepr qk) = Ok qk) by (apply (C06_str_roundtrip _ _ Gk)).
    assert (PB : parse_dtype (grepr qb) = Ok qb) by (apply (C06_str_roundtrip _ _ Gb)).
    destruct (OKF inp k b ba' m (map (quant1 qb 0 (si * sk)) (kd_b l)) qi qk qb eq_refl eq_refl eq_refl eq_refl (no_dtype _ _ NI) PK PB) as (M1 & M2 & BV).
    cbn [pn_scale k] in M1, M2. fold si in M1, M2.
    destruct (fc_builds l sk m inp ba' qi q qk qb NI NB' Psk M2) as (lf & Hlf & ly & Hly & RW).
    exists ly, lf. split; [exact Hly|]. split; [exact RW|].
    intros x xq e NX Lx. destruct NX as [NX1 NX2 NX3].
    assert (XN : x <> []) by (destruct x; cbn in *; [lia|discriminate]).
    assert (E0 : (0 <= e)%Q) by (apply (near_nonneg inp qi e x xq); [constructor; assumption|exact XN]).
    rewrite S1 in *. fold si in Hlf.
    assert (GS : good_shapes m (map (quant1 qb 0 (si * sk)) (kd_b l)) xq).
    { split.
      - intros w Hw. apply In_nth with (d := []) in Hw as (j & Hj & <-). rewrite LMJ by lia. lia.
      - rewrite map_length, (kd_b_length n) by exact Sh. lia. }
    destruct (fc_row_raw si (pn_zp inp) sk so (pn_zp ba') q m _ lf xq x e Psi Psk Pso E0 Hlf GS N (no_zp _ _ NB') M1 ltac:(lia) NX3)
      as (y & Y1 & Y2 & Y3 & Y4).
    exists y. split; [apply g_fc_ok, Y1|]. split; [lia|]. split; [exact Y3|].
    intros j Hj. rewrite affine_nth by exact Hj.
    set (w := column j (kd_kernel l)). set (bj := bias_at l j).
    set (ek := if d_sym d then (sk * (1#2))%Q else sk).
    assert (EK0 : (0 <= ek)%Q) by (unfold ek; destruct (d_sym d); lra).
    assert (LW : length w = n) by (unfold w, column; now rewrite map_length).
    assert (NBJ : nth j (map (quant1 qb 0 (si * sk)) (kd_b l)) 0 = quant1 qb 0 (si * sk) bj).
    { rewrite nth_indep with (d' := quant1 qb 0 (si * sk) 0) by (rewrite map_length, (kd_b_length n) by exact Sh; exact Hj).
      rewrite map_nth. f_equal. apply (kd_b_nth n); assumption. }
    destruct (BV (quant1 qb 0 (si * sk) bj)) as [BV1 BV2].
    { apply in_map_iff. exists bj. split; [reflexivity|]. unfold bj. rewrite <- (kd_b_nth n l j Sh Hj). apply nth_In. rewrite (kd_b_length n) by exact Sh. exact Hj. }
    specialize (MJ j Hj). fold w in MJ.
    assert (MJ' : forall i, (i < n)%nat -> in_dtype qk (nth i (nth j m []) 0) /\ (Qabs (sk * inject_Z (nth i (nth j m []) 0%Z) - nth i w 0) <= ek)%Q).
    { intros i Hi. clear -MJ Hi LW. rewrite <- LW in Hi. revert i Hi. clear LW. induction MJ as [|c0 x0 cs xs H _ IH]; intros i Hi; [cbn in Hi; lia|].
      destruct i as [|i]; [exact H|]. apply IH. cbn in Hi. lia. }
    destruct (Y4 j w bj ek (si * sk * (1#2))%Q ltac:(lia) EK0) as (v & V1 & V2).
    + intros i Hi. apply MJ'. lia.
    + rewrite NBJ. apply quant_bias_err; [exact Nb|exact Pii|exact BV1].
    + rewrite NBJ. eapply Z.le_trans; [apply (acc_bound qi _ _ _ (Z.max (gmax qk) (- gmin qk)))|].
      * apply (no_zp _ _ NI).
      * exact NX2.
      * intros v Hv. apply In_nth with (d := 0) in Hv as (i & Hi & <-). rewrite LMJ in Hi by exact Hj.
        destruct (MJ' i Hi) as [[D1 D2] _]. lia.
      * rewrite LMJ by exact Hj. lia.
      * rewrite WM in BV2. replace (length xq) with n by lia. exact BV2.
    + exists v. split; [exact V1|]. rewrite S2 in V2. eapply Qle_trans; [exact V2|].
      unfold fc_bound. fold ek.
      assert (SB : (sumQ_upto (length x) (fun i => e * Qabs (nth i w 0%Q) + ek * Qabs (nth i x 0%Q) + e * ek) <=
         e * wsum l + ek * abssum x + inject_Z (Z.of_nat (length x)) * (e * ek))%Q).
      { rewrite (sumQ_upto_split (length x) (fun i => e * Qabs (nth i w 0%Q) + ek * Qabs (nth i x 0%Q))%Q (fun _ => e * ek)%Q).
        rewrite (sumQ_upto_split (length x) (fun i => e * Qabs (nth i w 0%Q))%Q (fun i => ek * Qabs (nth i x 0%Q))%Q).
        rewrite !sumQ_upto_scale, sumQ_upto_const.
        rewrite <- (abssum_upto x (length x) eq_refl). rewrite <- (abssum_upto w (length x)) by lia.
        apply Qplus_le_compat; [|lra]. apply Qplus_le_compat; [|lra].
        rewrite !(Qmult_comm e). apply Qmult_le_compat_r; [apply wsum_ge, Hj|exact E0]. }
      lra. }
  pose proof N as (N1 & N2 & N3).
  assert (HXN : forall x xq e, near inp qi e x xq -> length x = n -> xq <> []).
  { intros x xq e [NX1 _ _] Lx ->. destruct x; cbn in *; [lia|discriminate]. }
  assert (AIN : forall x j, (j < kd_units l)%nat -> In (nth j (affine l x) 0%Q) (affine l x)).
  { intros x j Hj. apply nth_In. rewrite affine_length. exact Hj. }
  assert (T : is_table l = false \/ table_act l).
  { destruct HA as [H|[H|H]]; [left; apply plain_facts in H; tauto|now right|left; apply relu_facts in H; tauto]. }
  destruct T as [T1|HT].
  - rewrite T1 in HE. destruct HE as [-> ->]. inversion OK as [|? ? [OK1 OK2] _]; subst.
    destruct (OK2 ba (or_introl eq_refl)) as [SP SZ]. specialize (SZ q PBA).
    assert (NB : node_ok ba q) by (constructor; assumption).
    destruct (FC ba eq_refl eq_refl NB OK1) as (ly & lf & B1 & B2 & B3).
    exists [ly], [g_fc lf]. cbn [mapM]. rewrite B1. cbn [rbind]. split; [reflexivity|].
    split; [constructor; [exact B2|constructor]|]. split; [exact NB|].
    intros x xq e NX Lx. destruct (B3 x xq e NX Lx) as (yq & Y1 & Y2 & Y3 & Y4). exists yq. split.
    + econstructor; [exact (HXN _ _ _ NX Lx)|exact Y1|constructor].
    + cbn [rerr fc_oper]. rewrite T1. unfold sym_of. rewrite EC.
      set (e1 := fc_bound (d_sym d) l si sk so x e) in *.
      match goal with |- near _ _ ?bb _ _ => change bb with (Qmax e1 (Qmax (leak l ba) (excess ba (layer_out l x)))) end.
      constructor; [rewrite layer_out_length; exact Y2|exact Y3|].
      rewrite layer_out_length. intros j Hj. destruct (Y4 j Hj) as (v & V1 & V2). rewrite V1, layer_out_nth by exact Hj. fold so.
      set (a := nth j (affine l x) 0%Q) in *.
      assert (EI : In (act_fn l a) (layer_out l x)) by (apply in_map, AIN, Hj).
      destruct (excess_in ba (layer_out l x) (act_fn l a) EI) as [X1 X2].
      set (lk := leak l ba) in *. set (exc := excess ba (layer_out l x)) in *.
      pose proof (Q.le_max_l e1 (Qmax lk exc)) as Z1. pose proof (Q.le_max_r e1 (Qmax lk exc)) as Z2.
      apply Qmax_lub' in Z2 as [Z2 Z3]. set (mm := Qmax e1 (Qmax lk exc)) in *.
      rewrite (top_eq ba q PBA) in X1. rewrite (bottom_eq ba q PBA) in X2. fold so in X1, X2.
      unfold act_fn in *. rewrite T1 in *. unfold lk, leak in Z2. rewrite T1 in Z2.
      destruct (is_relu l) eqn:R1.
      * rewrite (bottom_eq ba q PBA) in Z2. fold so in Z2. apply (clamp_relu so (pn_zp ba) q v a e1); try assumption; lra.
      * destruct (is_relu6 l) eqn:R6.
        -- apply Qmax_lub' in Z2 as [Z2 Z4]. rewrite (bottom_eq ba q PBA) in Z2. rewrite (top_eq ba q PBA) in Z4. fold so in Z2, Z4.
           apply (clamp_relu6 so (pn_zp ba) q v a e1); try assumption; lra.
        -- apply (clamp_sat so (pn_zp ba) q v a e1); try assumption; try lra; lia.
  - destruct (table_facts l HT) as (T1 & _ & _ & _ & kk & K1 & K2). rewrite T1 in HE. destruct HE as (os & oz & sh & -> & ->).
    set (o := mkpn os oz (grepr q) sh PNone None) in *.
    set (ba' := attach_lut ba q (kd_fn l) os oz) in *.
    inversion OK as [|? ? [OK1 OK2] OK']; subst. inversion OK' as [|? ? [_ OK3] _]; subst.
    destruct (OK2 ba' (or_introl eq_refl)) as [SP SZ]. specialize (SZ q PBA).
    assert (PO : parse_dtype (pn_dtype o) = Ok q) by (apply (C06_str_roundtrip _ _ Gba)).
    destruct (OK3 o (or_introl eq_refl)) as [SPo SZo]. specialize (SZo q PO).
    assert (NB' : node_ok ba' q) by (constructor; assumption).
    assert (NO : node_ok o q) by (constructor; assumption).
    destruct (FC ba' eq_refl eq_refl NB' OK1) as (ly & lf & B1 & B2 & B3).
    set (lt := NodeModel.lut_new q (kd_fn l) (pn_scale ba) (pn_zp ba) os oz).
    set (a := mkact (Full (NodeModel.l_table lt)) (NodeModel.lut_offset lt)).
    assert (BL : exists ly2, build_layer ie_builders (mkjop (upper (kd_act l) ++ str "LUT") (upper (kd_act l) ++ str "LUT") (mkpb [ba'] [o])) = Ok ly2 /\ rowwise ly2 (g_lut a)).
    { eexists. split.
      - unfold build_layer. cbn [jo_type jo_body]. rewrite K1. cbn [rbind ie_builders b_tflite].
        transitivity (ie_lut (mkpb [ba'] [o])); [destruct K2 as [-> | ->]; reflexivity|].
        unfold ie_lut. change (py_index (pb_in (mkpb [ba'] [o])) 0) with (Ok ba'). cbn [rbind]. reflexivity.
      - intros xs ys NE XN F. cbn [asI].
        assert (CN : concat xs <> []).
        { destruct xs as [|r xs]; [congruence|]. specialize (XN r ltac:(now left)). destruct r; [congruence|discriminate]. }
        destruct (concat xs) as [|z0 zs]; [congruence|].
        assert (MM : mapM (g_lut a) xs = Ok ys) by (apply mapM_inv; exact F).
        transitivity (do m0 <- mapM (g_lut a) xs; Ok (VI m0)); [reflexivity|]. rewrite MM. reflexivity. }
    destruct BL as (ly2 & BL1 & BL2).
    exists [ly; ly2], [g_fc lf; g_lut a]. split.
    { cbn [mapM]. rewrite B1. cbn [rbind]. rewrite BL1. reflexivity. }
    split; [constructor; [exact B2|constructor; [exact BL2|constructor]]|]. split; [exact NO|].
    intros x xq e NX Lx. destruct (B3 x xq e NX Lx) as (yq & Y1 & YL & YD & YE).
    destruct (LIP HT) as (L0 & D0 & LI).
    assert (LK1 : forall v, in_dtype q v -> lookup (la_table a) (v + la_offset a) = Ok (quant1 q oz os (kd_fn l (dequant1 (pn_zp ba) (pn_scale ba) v)))).
    { intros v Hv. pose proof (C33_fresh_lookup q (kd_fn l) (pn_scale ba) (pn_zp ba) os oz v N1 Hv) as E.
      unfold NodeModel.lut_call in E. fold lt in E. unfold a. cbn [la_table la_offset lookup]. rewrite E. reflexivity. }
    assert (GL : g_lut a yq = Ok (map (fun v => quant1 q oz os (kd_fn l (dequant1 (pn_zp ba) (pn_scale ba) v))) yq)).
    { unfold g_lut. apply mapM_ok_map. intros v Hv. apply LK1, YD, Hv. }
    set (e1 := fc_bound (d_sym d) l si sk so x e) in *.
    eexists. split.
    + econstructor; [exact (HXN _ _ _ NX Lx)|exact Y1|econstructor; [|exact GL|constructor]].
      intros ->. cbn in YL. lia.
    + cbn [rerr fc_oper]. rewrite T1. unfold sym_of. rewrite EC.
      match goal with |- near _ _ ?bb _ _ =>
        change bb with (Qmax (L l * Qmax e1 (excess ba' (affine l x)) + D l + os * (1#2)) (excess o (layer_out l x))) end.
      set (exa := excess ba' (affine l x)). set (exo := excess o (layer_out l x)).
      set (e2 := Qmax e1 exa). set (mm := Qmax (L l * e2 + D l + os * (1#2)) exo).
      assert (ONE : forall i, (i < kd_units l)%nat ->
        let v := quant1 q oz os (kd_fn l (dequant1 (pn_zp ba) (pn_scale ba) (nth i yq 0))) in
        in_dtype q v /\ (Qabs (os * inject_Z (v - oz) - kd_fn l (nth i (affine l x) 0%Q)) <= mm)%Q).
      { intros i Hi. cbv zeta. destruct (YE i Hi) as (v & V1 & V2). set (ai := nth i (affine l x) 0%Q) in *.
        assert (IY : in_dtype q (nth i yq 0)) by (apply YD, nth_In; lia).
        assert (P1 : (Qabs (so * inject_Z (nth i yq 0%Z - pn_zp ba) - ai) <= e2)%Q).
        { rewrite V1. destruct (excess_in ba' (affine l x) ai (AIN x i Hi)) as [X1 X2]. fold exa in X1, X2.
          rewrite (top_eq ba' q PBA) in X1. rewrite (bottom_eq ba' q PBA) in X2.
          change (pn_scale ba') with so in X1, X2. change (pn_zp ba') with (pn_zp ba) in X1, X2.
          pose proof (Q.le_max_l e1 exa) as M1. pose proof (Q.le_max_r e1 exa) as M2. fold e2 in M1, M2.
          apply (clamp_sat so (pn_zp ba) q v ai e1); [exact SP|lia|exact V2|exact M1|lra|lra]. }
        rewrite (dequant1_nowrap q) by (try exact N1; try exact IY; pose proof (no_zp _ _ NB') as NZ; change (pn_zp ba') with (pn_zp ba) in NZ; unfold zp_nowrap, in_dtype in *; lia).
        assert (AO : In (kd_fn l ai) (layer_out l x)).
        { apply in_map_iff. exists ai. split; [unfold act_fn; now rewrite T1|apply AIN, Hi]. }
        destruct (excess_in o (layer_out l x) (kd_fn l ai) AO) as [X1 X2]. fold exo in X1, X2.
        rewrite (top_eq o q PO) in X1. rewrite (bottom_eq o q PO) in X2. change (pn_scale o) with os in X1, X2. change (pn_zp o) with oz in X1, X2.
        pose proof (Q.le_max_l (L l * e2 + D l + os * (1#2)) exo) as M1. pose proof (Q.le_max_r (L l * e2 + D l + os * (1#2)) exo) as M2. fold mm in M1, M2.
        apply (quant1_sat q os oz (kd_fn l ai) _ (L l * e2 + D l)%Q mm N SPo); try lra.
        eapply Qle_trans; [apply LI|]. apply Qplus_le_compat; [|lra]. rewrite !(Qmult_comm (L l)). apply Qmult_le_compat_r; [|exact L0].
        rewrite (Qmult_comm (inject_Z _)). exact P1. }
      constructor.
      * rewrite layer_out_length, map_length. exact YL.
      * intros v Hv. apply in_map_iff in Hv as (u & <- & Hu'). apply In_nth with (d := 0) in Hu' as (i & Hi & <-). rewrite YL in Hi. apply (ONE i Hi).
      * rewrite layer_out_length. intros i Hi. change (pn_scale o) with os. change (pn_zp o) with oz.
        set (h := fun v => quant1 q oz os (kd_fn l (dequant1 (pn_zp ba) (pn_scale ba) v))).
        rewrite nth_indep with (d' := h 0) by (rewrite map_length, YL; exact Hi). rewrite map_nth. unfold h.
        rewrite layer_out_nth by exact Hi. unfold act_fn. rewrite T1. apply (ONE i Hi).
Qed.

Lemma rerr_split c L D l qk q qb sym inp ops out rest ls x e :
  rexport l qk q qb sym inp ops out ->
  rerr c L D (l :: ls) (ops ++ rest) x e = rerr c L D ls rest (layer_out l x) (rerr c L D [l] ops x e).
Proof.
  intros [(sk & m & ba & _ & _ & _ & H)]. cbv zeta in H. destruct (is_table l) eqn:T.
  - destruct H as (os & oz & sh & _ & ->). cbn [app rerr]. rewrite T. reflexivity.
  - destruct H as (_ & ->). cbn [app rerr]. rewrite T. reflexivity.
Qed.

Lemma mapM_app_ok {A B} (f : A -> res B) l1 l2 r1 r2 : mapM f l1 = Ok r1 -> mapM f l2 = Ok r2 -> mapM f (l1 ++ l2) = Ok (r1 ++ r2).
Proof.
  revert r1. induction l1 as [|a l1 IH]; intros r1 H1 H2; cbn [app mapM] in *.
  - assert (r1 = []) by congruence. now subst.
  - destruct (f a) as [b|]; [|discriminate]. cbn [rbind] in *. destruct (mapM f l1) as [r|]; [|discriminate]. cbn [rbind] in *.
    rewrite (IH r eq_refl H2). cbn [rbind]. assert (r1 = b :: r) by congruence. now subst.
Qed.

Lemma rlayers_ok c : forall ls n inp data qi ops out,
  shaped n (denses ls) -> Forall (good_rlayer c) (denses ls) -> node_ok inp qi -> (forall r, In r data -> length r = n) ->
  pipe_layers c ls inp data = Ok (ops, out) -> Forall op_ok ops ->
  exists qo, node_ok out qo /\ length ops = op_count (denses ls) /\
    forall L D, (forall l, In l (denses ls) -> table_act l -> lipschitz L D l) ->
    exists lys gs, mapM (build_layer ie_builders) ops = Ok lys /\ Forall2 rowwise lys gs /\
      forall x xq e, near inp qi e x xq -> length x = n ->
        exists yq, chain gs xq yq /\ near out qo (rerr c L D (denses ls) ops x e) (net_out (denses ls) x) yq.
Proof.
  induction ls as [|p ls IH]; intros n inp data qi ops out Sh G NI LD PL OK.
  - cbn [pipe_layers] in PL. assert (ops = []) by congruence. assert (out = inp) by congruence. subst.
    exists qi. split; [exact NI|]. split; [reflexivity|]. intros L D _. exists [], [].
    split; [reflexivity|]. split; [constructor|]. intros x xq e NX _. exists xq. split; [constructor|exact NX].
  - destruct p as [l|]; [|exact (IH n inp data qi ops out Sh G NI LD PL OK)]. cbn [denses] in Sh, G.
    apply shaped_layer in Sh as (SL & SR & _).
    inversion G as [|? ? (HA & d & qk & q & qb & EC & GC) GR]; subst.
    cbn [pipe_layers] in PL. destruct (pipe_dense (layer_cfg c (kd_name l)) l inp data) as [[[ops1 out1] data1]|] eqn:PD; [|discriminate].
    cbn [rbind] in PL. destruct (pipe_layers c ls out1 data1) as [[ops2 out2]|] eqn:PL2; [|discriminate]. cbn [rbind fst snd] in PL.
    assert (EO : ops = ops1 ++ ops2) by congruence. assert (EU : out = out2) by congruence. subst ops out. clear PL.
    destruct (pipe_dense_inv c l inp data d qk q qb n ops1 out1 data1 EC GC HA SL LD PD) as [ED RE]. subst data1.
    apply Forall_app_inv in OK as [OK1 OK2].
    assert (NO : node_ok out1 q).
    { destruct GC as [Gopt Gk Ga Gba Gb Nk N Nb Gpos Gsym].
      destruct RE as [(sk & m & ba & _ & _ & PBA & H)]. cbv zeta in H. destruct (is_table l).
      - destruct H as (os & oz & sh & E1 & E2). rewrite E2 in OK1. inversion OK1 as [|? ? _ OK']; subst. inversion OK' as [|? ? [_ O3] _]; subst.
        destruct (O3 _ (or_introl eq_refl)) as [SP SZ].
        assert (PO : parse_dtype (grepr q) = Ok q) by (apply (C06_str_roundtrip _ _ Gba)).
        constructor; [exact PO|exact N|exact SP|exact (SZ q PO)].
      - destruct H as (E1 & E2). rewrite E2 in OK1. inversion OK1 as [|? ? [_ O3] _]; subst.
        destruct (O3 _ (or_introl eq_refl)) as [SP SZ]. constructor; [exact PBA|exact N|exact SP|exact (SZ q PBA)]. }
    destruct (IH (kd_units l) out1 (map (float_layer l) data) q ops2 out2 SR GR NO) as (qo & NO2 & CNT & HL).
    { intros r Hr. apply in_map_iff in Hr as (y & <- & _). apply float_layer_length. }
    { exact PL2. }
    { exact OK2. }
    exists qo. split; [exact NO2|]. split.
    { rewrite app_length, CNT. unfold op_count. cbn [denses fold_right]. f_equal.
      destruct RE as [(sk & m & ba & _ & _ & _ & H)]. cbv zeta in H. destruct (is_table l).
      - destruct H as (os & oz & sh & _ & ->). reflexivity.
      - destruct H as (_ & ->). reflexivity. }
    intros L D LIP.
    destruct (rdense_step c L D l qk q qb d qi inp ops1 out1 n EC GC HA SL NI RE OK1) as (lys & gs & B1 & B2 & _ & B3).
    { apply LIP. now left. }
    destruct (HL L D) as (lys2 & gs2 & C1 & C2 & C3); [intros; apply LIP; [now right|assumption]|].
    exists (lys ++ lys2), (gs ++ gs2). split; [now apply mapM_app_ok|].
    split; [now apply Forall2_app|].
    intros x xq e NX Lx.
    destruct (B3 x xq e NX Lx) as (yq & Y1 & Y2).
    destruct (C3 (layer_out l x) yq _ Y2 (layer_out_length l x)) as (zq & Z1 & Z2).
    exists zq. split; [eapply chain_app; eassumption|]. cbn [denses].
    rewrite (rerr_split c L D l qk q qb (d_sym d) inp ops1 out1 ops2 (denses ls) x e RE). exact Z2.
Qed.
Lemma rinput_near nd q x : node_ok nd q ->
  near nd q (Qmax (pn_scale nd * (1#2)) (excess nd x)) x (map (quant1 q (pn_zp nd) (pn_scale nd)) x).
Proof.
  intros [ND NN NP NZ].
  assert (H : forall v, In v x -> in_dtype q (quant1 q (pn_zp nd) (pn_scale nd) v) /\
     (Qabs (pn_scale nd * inject_Z (quant1 q (pn_zp nd) (pn_scale nd) v - pn_zp nd) - v) <= Qmax (pn_scale nd * (1#2)) (excess nd x))%Q).
  { intros v Hv. destruct (excess_in nd x v Hv) as [X1 X2]. rewrite (top_eq nd q ND) in X1. rewrite (bottom_eq nd q ND) in X2.
    pose proof (Q.le_max_l (pn_scale nd * (1#2)) (excess nd x)) as M1. pose proof (Q.le_max_r (pn_scale nd * (1#2)) (excess nd x)) as M2.
    apply (quant1_sat q _ _ v v 0%Q); [exact NN|exact NP| |lra|lra|lra].
    setoid_replace (v - v)%Q with 0%Q by ring. discriminate. }
  constructor.
  - now rewrite map_length.
  - intros v Hv. apply in_map_iff in Hv as (u & <- & Hu). now apply H.
  - intros i Hi. set (h := quant1 q (pn_zp nd) (pn_scale nd)).
    rewrite (nth_indep (map h x) 0 (h 0%Q)) by (rewrite map_length; exact Hi). rewrite map_nth. unfold h.
    apply H, nth_In, Hi.
Qed.
