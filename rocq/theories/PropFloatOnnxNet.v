(** Property C91: an ONNX file run by the engine in binary64 computes the real-valued network the file describes, up to an explicit error. *)
From Verif Require Import Base BaseProofs DtypeModel QuantModel QuantProofs LutModel FcModel FcProofs FcLayer EngineModel EngineProofs PropCore PropFc PropLut PropEngine ConvModel
  FloatModel FloatProofs FloatQuant PropFloat FloatFcModel PropFloatFc PipeModel FloatEngineModel PropFloatNet
  LstmModel LstmProofs PropLstm FloatLstmModel FloatLstmProofs PropFloatLstm OnnxModel PropOnnx FloatOnnxModel PropFloatOnnx FloatOnnxNetModel.
From Coq Require Import Lqa Qpower Qminmax.
Open Scope Z_scope.
Open Scope list_scope.

(** ** Specification *)
(** parameters of the engine's ONNX tensors: codes 0..255, the zero point a code, the scale a double between 2^-200 and 2^200 *)
Definition byte_params (p : params) : Prop := p_d p = u8 /\ uint8 (p_z p) /\ fair (p_s p).
Definition has (f : fnode) (p : params) : Prop := fn_scale f = Fin (p_s p) /\ fn_zp f = p_z p.
Definition is_op (op : jop fbody) (k : okind) : Prop := build_operator_kind (jo_type op) = Ok k.
(** the saturated matrix product and sum of real vectors that weight codes W, bias codes bv stand for *)
Definition mm_real (n : nat) (sw : Q) (zw : Z) (W : list (list Z)) (o : params) (v : list Q) : list Q :=
  map (fun w => clip o (sumQ_upto n (fun i => nth i v 0 * (sw * inject_Z (nth i w 0%Z - zw))))%Q) W.
Definition add_real (sb : Q) (zb : Z) (bv : list Z) (o : params) (v : list Q) : list Q :=
  map (fun jb => clip o (nth (fst jb) v 0 + sb * inject_Z (snd jb - zb))%Q) (combine (seq 0 (length bv)) bv).
(** the table of node [i] answers [t] for code [q] *)
Definition answers (i : fnode) (q t : Z) : Prop := exists a, lut_from_node (fn_lut i) = Ok a /\ lookup (la_table a) (q + la_offset a) = Ok t.
(** [chain p n ops p' n' F B]: on codes with parameters [p], rows of width [n], the operators compute the real function [F]; an input known up
    to [e] gives an output known up to [B e] *)
Inductive chain (sg : f64 -> f64) : params -> nat -> list (jop fbody) -> params -> nat -> (list Q -> list Q) -> (Q -> Q) -> Prop :=
| chain_nil p n : chain sg p n [] p n (fun v => v) (fun e => e)
| chain_matmul p n op i w o r W sw zw po K ops p' n' F B :
    is_op op OMatMul -> fb_in (jo_body op) = i :: w :: o :: r -> has i p -> fn_scale w = Fin sw -> fn_zp w = zw -> fn_tensor w = PMat W ->
    has o po -> byte_params p -> byte_params po -> fair sw ->
    (forall c, In c W -> length c = n) -> (0 < length W)%nat -> (forall c x, In c W -> In x c -> Z.abs (x - zw) <= 255) -> Z.of_nat n <= 33025 ->
    (* K: the largest absolute weight sum of an output *)
    (forall c, In c W -> (sumQ_upto n (fun i => Qabs (sw * inject_Z (nth i c 0%Z - zw))) <= K)%Q) ->
    chain sg po (length W) ops p' n' F B ->
    chain sg p n (op :: ops) p' n' (fun v => F (mm_real n sw zw W po v)) (fun e => B (K * e + p_s po * (1#2) + p_s p * sw * (1 # 2 ^ 19))%Q)
| chain_add p op i b o r bv sb zb po ops p' n' F B :
    is_op op OAdd -> fb_in (jo_body op) = i :: b :: o :: r -> has i p -> fn_scale b = Fin sb -> fn_zp b = zb -> fn_tensor b = PVec bv ->
    has o po -> byte_params p -> byte_params po -> fair sb -> uint8 zb -> (forall x, In x bv -> uint8 x) ->
    chain sg po (length bv) ops p' n' F B ->
    chain sg p (length bv) (op :: ops) p' n' (fun v => F (add_real sb zb bv po v)) (fun e => B (e + p_s po * (1#2) + (p_s p + sb) * (1 # 2 ^ 42))%Q)
| chain_sigmoid p n op i o r f eta L po ops p' n' F B :
    is_op op OSigmoid -> fb_in (jo_body op) = i :: o :: r -> has i p -> has o po -> byte_params p -> byte_params po ->
    computes sg f eta -> lipschitz1 f L -> (0 <= L)%Q ->
    chain sg po n ops p' n' F B ->
    chain sg p n (op :: ops) p' n' (fun v => F (map (fun a => clip po (f a)) v))
      (fun e => B (L * e + (L * (p_s p * two_to (-44)) + eta + p_s po * ((1#2) + two_to (-41))))%Q)
| chain_lut p n op kd i r f T L D po ops p' n' F B :
    is_op op kd -> kd = OSigmoidLUT \/ kd = OTanhLUT -> fb_in (jo_body op) = i :: r -> byte_params p -> p_d po = u8 -> (0 <= L)%Q -> (0 <= D)%Q ->
    (* the table answers every code with a code that is the function [f] up to [D] *)
    (forall q, uint8 q -> answers i q (T q) /\ uint8 (T q) /\
       forall a e, (Qabs (value p q - a) <= e -> Qabs (value po (T q) - f a) <= L * e + D)%Q) ->
    chain sg po n ops p' n' F B ->
    chain sg p n (op :: ops) p' n' (fun v => F (map f v)) (fun e => B (L * e + D)%Q).

(** ** Proofs *)
Lemma byte_usable p : byte_params p -> usable p 8.
Proof.
  intros (D & [Z1 Z2] & F). unfold usable. rewrite D. split; [|split; [|split; [|split; [|split]]]].
  - unfold within_int32. cbn [gmin gmax u8]. lia.
  - unfold diff_in_int32. cbn [gmin gmax u8]. lia.
  - unfold codes_within. cbn [gmin gmax u8]. change (2 ^ 8) with 256. lia.
  - exact (proj1 F).
  - exact (fair_pos _ F).
  - eapply Qle_trans; [apply (fair_range _ F)|]. apply pow2_mono. lia.
Qed.
Lemma in_u8 q : in_dtype u8 q <-> uint8 q.
Proof. reflexivity. Qed.
(** From a code near the clipped real to values. *)
Lemma code_value po q v t r d E : byte_params po -> (t == p_s po * v)%Q -> (Qabs (inject_Z q - clampQ 0 255 (v + inject_Z (p_z po))) <= (1#2) + d)%Q ->
  (Qabs (t - r) <= E)%Q -> (Qabs (value po q - clip po r) <= E + p_s po * (1#2) + p_s po * d)%Q.
Proof.
  intros (D & _ & F) Et Hq Hr. pose proof (fair_pos _ F) as P. apply (clip_nonexp po) in Hr.
  pose proof (clip_scaled po t P ltac:(rewrite D; cbn; lia)) as CS. rewrite D in CS. cbn [gmin gmax u8] in CS.
  assert (Ec : forall a b, (a == b)%Q -> (clampQ 0 255 a == clampQ 0 255 b)%Q).
  { intros a c Eab. unfold clampQ. destruct (Qlt_le_dec a (inject_Z 0)), (Qlt_le_dec c (inject_Z 0)), (Qlt_le_dec (inject_Z 255) a), (Qlt_le_dec (inject_Z 255) c); lra. }
  rewrite (Ec _ (v + inject_Z (p_z po))%Q) in CS by (rewrite Et; field; lra).
  set (cl := clampQ _ _ _) in *. unfold value. rewrite inject_Z_minus.
  assert (Sc : (Qabs (p_s po * (inject_Z q - cl)) <= p_s po * ((1#2) + d))%Q).
  { rewrite Qabs_Qmult, (Qabs_pos (p_s po)) by lra. rewrite !(Qmult_comm (p_s po)). apply Qmult_le_compat_r; [exact Hq|lra]. }
  setoid_replace (p_s po * (inject_Z q - inject_Z (p_z po)) - clip po r)%Q
    with (p_s po * (inject_Z q - cl) + (clip po t - clip po r))%Q by (rewrite <- CS; ring).
  eapply Qle_trans; [apply Qabs_triangle|]. lra.
Qed.
Lemma nth_map_in {A B} (f : A -> B) l d d' j : (j < length l)%nat -> nth j (map f l) d' = f (nth j l d).
Proof. intros H. rewrite (nth_indep _ d' (f d)) by (rewrite map_length; exact H). apply map_nth. Qed.
(** sizes of accumulators *)
Lemma acc_bound zx zw x w : (forall c, In c x -> Z.abs (c - zx) <= 255) -> (forall c, In c w -> Z.abs (c - zw) <= 255) -> length w = length x ->
  Z.abs (exact_acc zx zw x w 0) <= 65025 * Z.of_nat (length x).
Proof.
  intros Hx Hw L. unfold exact_acc. rewrite Z.add_0_r. unfold sumZ_upto.
  assert (G : forall l, (forall i, In i l -> (i < length x)%nat) ->
     Z.abs (fold_right Z.add 0 (map (fun i => (nth i x 0 - zx) * (nth i w 0 - zw)) l)) <= 65025 * Z.of_nat (length l)).
  { induction l as [|i l IH]; intros Hl; [cbn; lia|]. cbn [map fold_right length].
    specialize (IH (fun k Hk => Hl k (or_intror Hk))). pose proof (Hl i (or_introl eq_refl)) as Hi.
    pose proof (Hx _ (nth_In x 0 Hi)) as A. pose proof (Hw _ (nth_In w 0 ltac:(rewrite L; exact Hi))) as B.
    set (a := nth i x 0 - zx) in *. set (b := nth i w 0 - zw) in *.
    assert (AB : Z.abs (a * b) <= 65025) by (rewrite Z.abs_mul; nia).
    set (s := fold_right Z.add 0 _) in *. lia. }
  specialize (G (seq 0 (length x))). rewrite seq_length in G. apply G. intros i Hi. apply in_seq in Hi. lia.
Qed.
Lemma codes_centered p n x : byte_params p -> codes p n x -> forall c, In c x -> Z.abs (c - p_z p) <= 255.
Proof.
  intros (D & [Z1 Z2] & _) (_ & C) c Hc. rewrite Forall_forall in C. specialize (C c Hc). rewrite D in C. unfold in_dtype in C. cbn [gmin gmax u8] in C. lia.
Qed.
(** *** Matrix product *)
Lemma step_matmul sg th nan p n op i w o r W sw zw po K :
  is_op op OMatMul -> fb_in (jo_body op) = i :: w :: o :: r -> has i p -> fn_scale w = Fin sw -> fn_zp w = zw -> fn_tensor w = PMat W ->
  has o po -> byte_params p -> byte_params po -> fair sw ->
  (forall c, In c W -> length c = n) -> (forall c x, In c W -> In x c -> Z.abs (x - zw) <= 255) -> Z.of_nat n <= 33025 ->
  (forall c, In c W -> (sumQ_upto n (fun i => Qabs (sw * inject_Z (nth i c 0%Z - zw))) <= K)%Q) ->
  exists ly, build_operator (fo_builders sg th nan) op = Ok ly /\
    forall X, Forall (codes p n) X -> exists Y, ly (GI X) = Ok (GI Y) /\
      Forall2 (row_step p n po (length W) (mm_real n sw zw W po) (fun e => (K * e + p_s po * (1#2) + p_s p * sw * (1 # 2 ^ 19))%Q)) X Y.
Proof.
  intros Ty Ei (S1 & Z1) S2 Z2 Tw (S3 & Z3) Gp Gpo Fw LW HW Hn HK.
  pose proof Gp as (Dp & Zp & Fp). pose proof Gpo as (Dpo & Zpo & Fpo).
  destruct (mm_build (p_s p) (p_z p) W sw zw (p_s po) (p_z po) Fp Fw Fpo) as (l & Bl & _).
  unfold build_operator. rewrite Ty. cbn [rbind fo_builders b_onnx]. unfold fo_matmul. rewrite Ei.
  change (py_index (i :: w :: o :: r) 0) with (Ok i). change (py_index (i :: w :: o :: r) 1) with (Ok w) || (rewrite (py_index_in_range (i :: w :: o :: r) 1 w) by (cbn [length]; lia || reflexivity)).
  rewrite (py_index_in_range (i :: w :: o :: r) 2 o) by (cbn [length]; lia || reflexivity). cbn [rbind].
  rewrite Tw, S1, S2, S3, Z1, Z2, Z3. cbn [finite rbind]. rewrite Bl. cbn [rbind].
  eexists. split; [reflexivity|]. intros X HX. cbn beta iota.
  assert (Row : forall x, codes p n x -> exists y, qmm_infer_f nan l (T1 x) = Ok (T1 y) /\
     row_step p n po (length W) (mm_real n sw zw W po) (fun e => (K * e + p_s po * (1#2) + p_s p * sw * (1 # 2 ^ 19))%Q) x y).
  { intros x Cx. pose proof Cx as (Lx & _).
    destruct (C88_matmul nan (p_s p) (p_z p) W sw zw (p_s po) (p_z po) x Fp Fw Fpo Zpo ltac:(intros c Hc; rewrite Lx; now apply LW)) as (l' & y & Bl' & I0 & Ly & Ey).
    rewrite Bl in Bl'. apply Ok_inv in Bl'. subst l'. exists y. split; [exact I0|]. split.
    - split; [exact Ly|]. apply Forall_forall. intros q Hq. destruct (In_nth_error _ _ Hq) as (j & Hj).
      assert (Jl : (j < length W)%nat) by (rewrite <- Ly; apply nth_error_Some; congruence).
      rewrite Dpo. apply in_u8. destruct (nth_error W j) as [c|] eqn:Ec; [|apply nth_error_None in Ec; lia]. now destruct (Ey j c q Ec Hj).
    - intros v e e0 Kn. split; [unfold mm_real; rewrite map_length; symmetry; exact Ly|]. intros j Hj. rewrite Ly in Hj.
      unfold mm_real. rewrite (nth_map_in _ W []) by exact Hj. set (c := nth j W []). assert (Hc : In c W) by now apply nth_In.
      assert (Hy : (j < length y)%nat) by lia.
      destruct (Ey j c (nth j y 0) (nth_error_nth' W [] Hj) (nth_error_nth' y 0 Hy)) as (_ & A). cbv zeta in A.
      set (acc := exact_acc (p_z p) zw x c 0) in *.
      pose proof (acc_bound (p_z p) zw x c (codes_centered p n x Gp Cx) (fun a Ha => HW c a Hc Ha) ltac:(rewrite Lx; now apply LW)) as AB. fold acc in AB. rewrite Lx in AB.
      destruct (A ltac:(lia)) as (A1 & _). clear A.
      pose proof (neuron_err p n x v e sw zw c 0 Lx Kn) as NE. fold acc in NE. unfold neuron in NE.
      set (rr := sumQ_upto n (fun i0 => nth i0 v 0 * (sw * inject_Z (nth i0 c 0%Z - zw)))%Q) in *.
      assert (NE' : (Qabs (p_s p * sw * inject_Z acc - rr) <= K * e)%Q).
      { setoid_replace (p_s p * sw * inject_Z acc - rr)%Q with (p_s p * sw * inject_Z acc - (rr + p_s p * sw * inject_Z 0))%Q by (change (inject_Z 0) with 0%Q; ring).
        eapply Qle_trans; [exact NE|]. rewrite (Qmult_comm e). apply Qmult_le_compat_r; [now apply HK|exact e0]. }
      pose proof (fair_pos _ Fp). pose proof (fair_pos _ Fw). pose proof (fair_pos _ Fpo).
      assert (Et : (p_s p * sw * inject_Z acc == p_s po * (p_s p * sw / p_s po * inject_Z acc))%Q) by (field; lra).
      eapply Qle_trans; [apply (code_value po _ _ _ rr _ _ Gpo Et A1 NE')|]. apply Qplus_le_compat; [apply Qle_refl|].
      unfold mm_slack. setoid_replace (p_s po * (u50 * (p_s p * sw / p_s po * inject_Z (Z.abs acc))))%Q with (u50 * inject_Z (Z.abs acc) * (p_s p * sw))%Q by (field; lra).
      rewrite (Qmult_comm (p_s p * sw)). apply Qmult_le_compat_r; [|apply Qmult_le_0_compat; lra].
      rewrite Qmult_comm. eapply Qle_trans; [apply (Qmult_le_compat_r (inject_Z (Z.abs acc)) (inject_Z (2 ^ 31)) u50); [apply (proj1 (Zle_inj (Z.abs acc) (2 ^ 31))); lia|discriminate]|].
      vm_compute. discriminate. }
  assert (G : exists Y, Forall2 (fun x y => qmm_infer_f nan l (T1 x) = Ok (T1 y)) X Y /\
    Forall2 (row_step p n po (length W) (mm_real n sw zw W po) (fun e => (K * e + p_s po * (1#2) + p_s p * sw * (1 # 2 ^ 19))%Q)) X Y).
  { induction HX as [|x X Cx _ (Y & A & B)]; [exists []; split; constructor|]. destruct (Row x Cx) as (y & I0 & St). exists (y :: Y). split; constructor; assumption. }
  destruct G as (Y & A & B). exists Y. split; [|exact B]. apply C88_matmul_batch in A. rewrite A. reflexivity.
Qed.
(** *** Addition *)
Lemma bshape_mat r n : bshape [r; n] [n] = Some [r; n].
Proof. unfold bshape. cbn [rev app bshape_rev]. rewrite Nat.eqb_refl. reflexivity. Qed.
Lemma map_seq_nth {A B} (f : A -> B) (l : list A) d : map (fun i => f (nth i l d)) (seq 0 (length l)) = map f l.
Proof.
  induction l as [|a l IH]; [reflexivity|]. cbn [length seq map nth]. f_equal. rewrite <- seq_shift, map_map. exact IH.
Qed.
Lemma add_rows nan is iz bs bz os oz bv n X : X <> [] -> (forall x, In x X -> length x = n) -> length bv = n ->
  exists r, qadd_infer_f nan (mkqadd is iz (nd_of_list 0 bv) bs bz os oz) (nd_of_mat X) = Ok r /\
    rows2 r = Ok (map (fun x => map (fun j => qadd1_f nan (mkqadd is iz (nd_of_list 0 bv) bs bz os oz) (nth j x 0) (nth j bv 0)) (seq 0 n)) X).
Proof.
  intros NE HX Lb. unfold qadd_infer_f, nd_bin. cbn [qa_b nd_of_list nd_shape nd_of_mat].
  assert (H0 : length (hd [] X) = n) by (destruct X as [|x X]; [contradiction|]; apply HX; now left).
  rewrite H0, Lb, bshape_mat. eexists. split; [reflexivity|]. unfold rows2. cbn [nd_shape nd_get]. f_equal.
  rewrite <- (map_seq_nth (fun x => map (fun j => qadd1_f nan _ (nth j x 0) (nth j bv 0)) (seq 0 n)) X []).
  apply map_ext_in. intros i Hi. apply in_seq in Hi. apply map_ext_in. intros j Hj. apply in_seq in Hj.
  set (q := mkqadd _ _ _ _ _ _ _). f_equal.
  - unfold bidx. cbn [length skipn Nat.sub combine map fst snd].
    destruct (length X =? 1)%nat eqn:E1; [apply Nat.eqb_eq in E1; replace i with 0%nat by lia|];
    (destruct (n =? 1)%nat eqn:E2; [apply Nat.eqb_eq in E2; replace j with 0%nat by lia|]; cbn [nth]; reflexivity).
  - unfold bidx. cbn [length skipn Nat.sub combine map fst snd].
    destruct (n =? 1)%nat eqn:E2; [apply Nat.eqb_eq in E2; replace j with 0%nat by lia|]; cbn [hd]; reflexivity.
Qed.
Lemma step_add sg th nan p op i b o r bv sb zb po :
  is_op op OAdd -> fb_in (jo_body op) = i :: b :: o :: r -> has i p -> fn_scale b = Fin sb -> fn_zp b = zb -> fn_tensor b = PVec bv ->
  has o po -> byte_params p -> byte_params po -> fair sb -> uint8 zb -> (forall x, In x bv -> uint8 x) ->
  exists ly, build_operator (fo_builders sg th nan) op = Ok ly /\
    forall X, X <> [] -> Forall (codes p (length bv)) X -> exists Y, ly (GI X) = Ok (GI Y) /\
      Forall2 (row_step p (length bv) po (length bv) (add_real sb zb bv po) (fun e => (e + p_s po * (1#2) + (p_s p + sb) * (1 # 2 ^ 42))%Q)) X Y.
Proof.
  intros Ty Ei (S1 & Z1) S2 Z2 Tb (S3 & Z3) Gp Gpo Fb Zb Hb.
  pose proof Gp as (Dp & Zp & Fp). pose proof Gpo as (Dpo & Zpo & Fpo).
  unfold build_operator. rewrite Ty. cbn [rbind fo_builders b_onnx]. unfold fo_add. rewrite Ei.
  change (py_index (i :: b :: o :: r) 0) with (Ok i). rewrite (py_index_in_range (i :: b :: o :: r) 1 b) by (cbn [length]; lia || reflexivity).
  rewrite (py_index_in_range (i :: b :: o :: r) 2 o) by (cbn [length]; lia || reflexivity). cbn [rbind].
  rewrite Tb, S1, S2, S3, Z1, Z2, Z3. cbn [nd_of_pt finite rbind].
  eexists. split; [reflexivity|]. intros X NE HX. cbn beta iota.
  destruct (add_rows nan (p_s p) (p_z p) sb zb (p_s po) (p_z po) bv (length bv) X NE ltac:(intros x Hx; rewrite Forall_forall in HX; now destruct (HX x Hx)) eq_refl)
    as (rr & R1 & R2).
  rewrite R1. cbn [rbind]. rewrite R2. cbn [rbind]. eexists. split; [reflexivity|]. clear R1 R2 rr NE.
  induction HX as [|x X Cx _ IH]; [constructor|]. cbn [map]. constructor; [|exact IH]. clear IH X.
  pose proof Cx as (Lx & Ux). rewrite Dp in Ux.
  assert (El : forall j, (j < length bv)%nat -> uint8 (nth j x 0) /\ uint8 (nth j bv 0)).
  { intros j Hj. rewrite Forall_forall in Ux. split; [apply in_u8, Ux, nth_In; rewrite Lx; exact Hj|apply Hb, nth_In, Hj]. }
  set (q := mkqadd _ _ _ _ _ _ _). set (h := fun j => qadd1_f nan q (nth j x 0) (nth j bv 0)).
  split.
  - split; [now rewrite map_length, seq_length|]. apply Forall_map, Forall_forall. intros j Hj. apply in_seq in Hj. rewrite Dpo. apply in_u8.
    destruct (El j ltac:(lia)) as (A & B). unfold h.
    destruct (add_elem nan (p_s p) (p_z p) (nd_of_list 0 bv) sb zb (p_s po) (p_z po) _ _ Fp Fb Fpo Zp Zb A B) as (y & Y1 & Y2).
    unfold q. rewrite Y1. now destruct (finish_error nan y _ _ (p_z po) Zpo Y2).
  - intros v e e0 (Lv & Kn). split; [unfold add_real; rewrite !map_length, combine_length, seq_length; lia|].
    intros j Hj. rewrite map_length, seq_length in Hj. rewrite (nth_map_in h (seq 0 (length bv)) 0%nat) by (rewrite seq_length; exact Hj). rewrite seq_nth by exact Hj. cbn [Nat.add].
    unfold add_real. rewrite (nth_map_in _ _ (0%nat, 0)) by (rewrite combine_length, seq_length; lia). rewrite combine_nth by apply seq_length.
    rewrite seq_nth by exact Hj. cbn [Nat.add fst snd]. destruct (El j Hj) as (A & B). unfold h.
    destruct (add_elem nan (p_s p) (p_z p) (nd_of_list 0 bv) sb zb (p_s po) (p_z po) _ _ Fp Fb Fpo Zp Zb A B) as (y & Y1 & Y2).
    unfold q. rewrite Y1. destruct (finish_error nan y _ _ (p_z po) Zpo Y2) as (_ & E). specialize (Kn j ltac:(lia)).
    pose proof (fair_pos _ Fp). pose proof (fair_pos _ Fb). pose proof (fair_pos _ Fpo).
    set (c := nth j x 0) in *. set (d := nth j bv 0) in *.
    set (t := (p_s p * inject_Z (c - p_z p) + sb * inject_Z (d - zb))%Q).
    assert (Et : (t == p_s po * add_ref (p_s p) (p_z p) sb zb (p_s po) 0 c d)%Q) by (unfold add_ref, t; change (inject_Z 0) with 0%Q; field; lra).
    assert (Er : (Qabs (t - (nth j v 0 + sb * inject_Z (d - zb))) <= e)%Q).
    { setoid_replace (t - (nth j v 0 + sb * inject_Z (d - zb)))%Q with (value p c - nth j v 0)%Q by (unfold t, value; ring). exact Kn. }
    eapply Qle_trans; [apply (code_value po _ _ _ _ _ _ Gpo Et E Er)|]. apply Qplus_le_compat; [apply Qle_refl|].
    unfold add_slack. set (a1 := Z.abs (c - p_z p)). set (a2 := Z.abs (d - zb)).
    setoid_replace (p_s po * (u50 * ((p_s p * inject_Z a1 + sb * inject_Z a2) / p_s po)))%Q with (u50 * (p_s p * inject_Z a1 + sb * inject_Z a2))%Q by (field; lra).
    assert (B1 : (inject_Z a1 <= 255)%Q) by (apply (proj1 (Zle_inj a1 255)); unfold uint8, a1 in *; lia).
    assert (B2 : (inject_Z a2 <= 255)%Q) by (apply (proj1 (Zle_inj a2 255)); unfold uint8, a2 in *; lia).
    assert (M1 : (inject_Z a1 * p_s p <= 255 * p_s p)%Q) by (apply Qmult_le_compat_r; lra).
    assert (M2 : (inject_Z a2 * sb <= 255 * sb)%Q) by (apply Qmult_le_compat_r; lra).
    apply Qle_trans with (u50 * (255 * (p_s p + sb)))%Q; [rewrite !(Qmult_comm u50); apply Qmult_le_compat_r; [lra|discriminate]|].
    setoid_replace (u50 * (255 * (p_s p + sb)))%Q with (u50 * 255 * (p_s p + sb))%Q by ring. rewrite (Qmult_comm (p_s p + sb)).
    apply Qmult_le_compat_r; [vm_compute; discriminate|lra].
Qed.
(** *** QLinearSigmoid *)
Lemma rows_step {A : Prop} p n po (g : Z -> Z) (f : Q -> Q) E X : Forall (codes p n) X ->
  (forall q, in_dtype (p_d p) q -> in_dtype (p_d po) (g q)) ->
  (forall q a e, in_dtype (p_d p) q -> (0 <= e)%Q -> (Qabs (value p q - a) <= e)%Q -> (Qabs (value po (g q) - f a) <= E e)%Q) ->
  Forall2 (row_step p n po n (map f) E) X (map (map g) X).
Proof.
  intros HX Hg He. induction HX as [|x X Cx _ IH]; [constructor|]. cbn [map]. constructor; [|exact IH]. destruct Cx as (Lx & Cx). split.
  - split; [rewrite map_length; exact Lx|]. apply Forall_map. eapply Forall_impl; [|exact Cx]. exact Hg.
  - intros v e e0 (Lv & Kn). split; [rewrite !map_length; exact Lv|]. intros j Hj. rewrite map_length in Hj.
    rewrite (nth_map_in g x 0) by exact Hj. rewrite (nth_map_in f v 0%Q) by (rewrite Lv; exact Hj).
    rewrite Forall_forall in Cx. apply He; [apply Cx, nth_In, Hj|exact e0|now apply Kn].
Qed.
Lemma step_sigmoid sg th nan p n op i o r f eta L po :
  is_op op OSigmoid -> fb_in (jo_body op) = i :: o :: r -> has i p -> has o po -> byte_params p -> byte_params po ->
  computes sg f eta -> lipschitz1 f L -> (0 <= L)%Q ->
  exists ly, build_operator (fo_builders sg th nan) op = Ok ly /\
    forall X, Forall (codes p n) X -> exists Y, ly (GI X) = Ok (GI Y) /\
      Forall2 (row_step p n po n (map (fun a => clip po (f a))) (fun e => (L * e + (L * (p_s p * two_to (-44)) + eta + p_s po * ((1#2) + two_to (-41))))%Q)) X Y.
Proof.
  intros Ty Ei (S1 & Z1) (S2 & Z2) Gp Gpo Cg Li L0. unfold build_operator. rewrite Ty. cbn [rbind fo_builders b_onnx]. unfold fo_sigmoid. rewrite Ei.
  change (py_index (i :: o :: r) 0) with (Ok i). rewrite (py_index_in_range (i :: o :: r) 1 o) by (cbn [length]; lia || reflexivity). cbn [rbind].
  rewrite S1, S2, Z1, Z2. eexists. split; [reflexivity|]. intros X HX. cbn beta iota. eexists. split; [reflexivity|].
  pose proof (byte_usable _ Gp) as U. pose proof (byte_usable _ Gpo) as U'.
  pose proof Gpo as (Dpo & _). apply (@rows_step True); [exact HX| |].
  - intros q Hq. rewrite Dpo. destruct (deq_value p 8 q U Hq) as (x & -> & _). destruct (Cg x) as (y & -> & _).
    destruct U' as (A1 & _ & A3 & _ & A5 & _). rewrite Dpo in A1, A3.
    apply (quantf1_range u8 (p_z po) (p_s po) (Fin y) A1 (cw_zp _ _ _ A3) A5). discriminate.
  - intros q a e Hq _ Ha. destruct (deq_value p 8 q U Hq) as (x & Dx & _). rewrite Dx. destruct (Cg x) as (y & Gy & Ey). rewrite Gy.
    change (-44) with (8 - 52). change (-41) with (8 - 49).
    eapply Qle_trans; [apply (entry_value p 8 po 8 sg f eta L q _ x y 0 U U' Li L0 ltac:(lra) Hq Dx Gy Ey); [|exact Ha]|].
    + rewrite Dpo, Z.sub_diag. discriminate.
    + apply Qplus_le_compat; [apply Qle_refl|]. apply Qplus_le_compat; [apply Qle_refl|]. rewrite Qplus_0_r. apply Qle_refl.
Qed.
(** *** Tables *)
Lemma step_tab sg th nan p n op kd i r f T L D po :
  is_op op kd -> kd = OSigmoidLUT \/ kd = OTanhLUT -> fb_in (jo_body op) = i :: r -> byte_params p -> p_d po = u8 ->
  (forall q, uint8 q -> answers i q (T q) /\ uint8 (T q) /\ forall a e, (Qabs (value p q - a) <= e -> Qabs (value po (T q) - f a) <= L * e + D)%Q) ->
  exists ly, build_operator (fo_builders sg th nan) op = Ok ly /\
    forall X, concat X <> [] -> Forall (codes p n) X -> exists Y, ly (GI X) = Ok (GI Y) /\
      Forall2 (row_step p n po n (map f) (fun e => (L * e + D)%Q)) X Y.
Proof.
  intros Ty Kd Ei Gp Dpo HT. unfold build_operator. rewrite Ty. cbn [rbind].
  assert (Bk : b_onnx (fo_builders sg th nan) kd (jo_body op) = fe_lut (jo_body op)) by (destruct Kd as [-> | ->]; reflexivity).
  rewrite Bk. unfold fe_lut. rewrite Ei. change (py_index (i :: r) 0) with (Ok i). cbn [rbind].
  destruct (HT 0 ltac:(unfold uint8; lia)) as ((a0 & La & _) & _). rewrite La. cbn [rbind].
  eexists. split; [reflexivity|]. intros X NE HX. cbn beta iota. pose proof Gp as (Dp & _).
  exists (map (map T) X). split.
  - destruct (concat X) eqn:EC; [contradiction|]. rewrite (mapM_ok_map _ (map T)); [reflexivity|].
    intros x Hx. apply mapM_ok_map. intros q Hq. rewrite Forall_forall in HX. destruct (HX x Hx) as (_ & Cx). rewrite Forall_forall in Cx.
    pose proof (Cx q Hq) as Uq. rewrite Dp in Uq. destruct (HT q Uq) as ((a & A1 & A2) & _). rewrite La in A1. apply Ok_inv in A1. subst a. exact A2.
  - apply (@rows_step True); [exact HX| |].
    + intros q Hq. rewrite Dp in Hq. rewrite Dpo. now destruct (HT q Hq) as (_ & B & _).
    + intros q a e Hq _ Ha. rewrite Dp in Hq. destruct (HT q Hq) as (_ & _ & B). now apply B.
Qed.
(** *** The chain *)
Lemma F2_comp p n po no p' n' F E G B X Y Z0 : (forall e, (0 <= e)%Q -> (0 <= E e)%Q) ->
  Forall2 (row_step p n po no F E) X Y -> Forall2 (row_step po no p' n' G B) Y Z0 ->
  Forall2 (row_step p n p' n' (fun v => G (F v)) (fun e => B (E e))) X Z0.
Proof.
  intros HE FY. revert Z0. induction FY as [|x y X Y (C & St) _ IH]; intros Z0 FZ; inversion FZ as [|? z ? Z1 (C' & St') FZ']; subst; constructor; [|now apply IH].
  split; [exact C'|]. intros v e e0 Kn. apply St'; [now apply HE|now apply St].
Qed.
Lemma byte_pos p : byte_params p -> (0 < p_s p)%Q.
Proof. intros (_ & _ & F). exact (fair_pos _ F). Qed.
Lemma computes_pos g f eta : computes g f eta -> (0 <= eta)%Q.
Proof. intros H. destruct (H 0%Q) as (y & _ & E). eapply Qle_trans; [apply Qabs_nonneg|exact E]. Qed.
Lemma chain_run sg th nan p n ops p' n' F B : chain sg p n ops p' n' F B -> (0 < n)%nat ->
  (0 < n')%nat /\ exists ls, mapM (build_operator (fo_builders sg th nan)) ops = Ok ls /\
    forall X inter, X <> [] -> Forall (codes p n) X -> exists Y, snd (run_layers ls (GI X) inter) = Ok (GI Y) /\
      Forall2 (row_step p n p' n' F B) X Y.
Proof.
  assert (Cons : forall op p n po no p' n' F E G B ops,
    (forall e, (0 <= e)%Q -> (0 <= E e)%Q) ->
    (exists ly, build_operator (fo_builders sg th nan) op = Ok ly /\
       forall X, X <> [] -> Forall (codes p n) X -> exists Y, ly (GI X) = Ok (GI Y) /\ Forall2 (row_step p n po no F E) X Y) ->
    ((0 < n')%nat /\ exists ls, mapM (build_operator (fo_builders sg th nan)) ops = Ok ls /\
      forall X inter, X <> [] -> Forall (codes po no) X -> exists Y, snd (run_layers ls (GI X) inter) = Ok (GI Y) /\
        Forall2 (row_step po no p' n' G B) X Y) ->
    (0 < n')%nat /\ exists ls, mapM (build_operator (fo_builders sg th nan)) (op :: ops) = Ok ls /\
      forall X inter, X <> [] -> Forall (codes p n) X -> exists Y, snd (run_layers ls (GI X) inter) = Ok (GI Y) /\
        Forall2 (row_step p n p' n' (fun v => G (F v)) (fun e => B (E e))) X Y).
  { clear. intros op p n po no p' n' F E G B ops HE (ly & Bly & Rly) (N' & ls & Bls & Run). split; [exact N'|].
    exists (ly :: ls). split; [cbn [mapM]; rewrite Bly; cbn [rbind]; rewrite Bls; reflexivity|].
    intros X inter NE HX. destruct (Rly X NE HX) as (Y & EY & FY). cbn [run_layers]. rewrite EY.
    destruct (Run Y (inter ++ [GI Y]) (F2_nonempty _ _ _ FY NE) (F2_codes _ _ _ _ _ _ _ _ FY)) as (Z0 & EZ & FZ).
    exists Z0. split; [exact EZ|]. exact (F2_comp _ _ _ _ _ _ _ _ _ _ _ _ _ HE FY FZ). }
  induction 1 as [p n|p n op i w o r W sw zw po K ops p' n' F B Ty Ei Hi S2 Z2 Tw Ho Gp Gpo Fw LW L0 HW Hn HK Hm IH
    |p op i b o r bv sb zb po ops p' n' F B Ty Ei Hi S2 Z2 Tb Ho Gp Gpo Fb Zb Hb Hm IH
    |p n op i o r f eta L po ops p' n' F B Ty Ei Hi Ho Gp Gpo Cg Li L0 Hm IH
    |p n op kd i r f T L D po ops p' n' F B Ty Kd Ei Gp Dpo L0 D0 HT Hm IH]; intros N0.
  - split; [exact N0|]. exists []. split; [reflexivity|]. intros X inter NE HX. exists X. split; [reflexivity|].
    clear NE. induction HX as [|x X Cx _ IH]; constructor; [|exact IH]. split; [exact Cx|]. intros v e _ Kn. exact Kn.
  - apply (Cons op p n po (length W) p' n' (mm_real n sw zw W po) (fun e => (K * e + p_s po * (1#2) + p_s p * sw * (1 # 2 ^ 19))%Q) F B ops); [| |exact (IH L0)].
    + intros e e0. pose proof (byte_pos _ Gp). pose proof (byte_pos _ Gpo). pose proof (fair_pos _ Fw).
      assert (K0 : (0 <= K)%Q).
      { destruct W as [|c W]; [cbn in L0; lia|]. eapply Qle_trans; [|apply (HK c); now left]. apply sum_abs_nonneg. }
      assert (X1 : (0 <= K * e)%Q) by (apply Qmult_le_0_compat; assumption). assert (X2 : (0 <= p_s p * sw)%Q) by (apply Qmult_le_0_compat; lra).
      assert (X3 : (0 <= p_s p * sw * (1 # 2 ^ 19))%Q) by (apply Qmult_le_0_compat; [exact X2|discriminate]). lra.
    + destruct (step_matmul sg th nan p n op i w o r W sw zw po K Ty Ei Hi S2 Z2 Tw Ho Gp Gpo Fw LW HW Hn HK) as (ly & A & R).
      exists ly. split; [exact A|]. intros X _ HX. now apply R.
  - apply (Cons op p (length bv) po (length bv) p' n' (add_real sb zb bv po) (fun e => (e + p_s po * (1#2) + (p_s p + sb) * (1 # 2 ^ 42))%Q) F B ops); [| |exact (IH N0)].
    + intros e e0. pose proof (byte_pos _ Gp). pose proof (byte_pos _ Gpo). pose proof (fair_pos _ Fb).
      assert (X3 : (0 <= (p_s p + sb) * (1 # 2 ^ 42))%Q) by (apply Qmult_le_0_compat; [lra|discriminate]). lra.
    + exact (step_add sg th nan p op i b o r bv sb zb po Ty Ei Hi S2 Z2 Tb Ho Gp Gpo Fb Zb Hb).
  - apply (Cons op p n po n p' n' (map (fun a => clip po (f a))) (fun e => (L * e + (L * (p_s p * two_to (-44)) + eta + p_s po * ((1#2) + two_to (-41))))%Q) F B ops); [| |exact (IH N0)].
    + intros e e0. pose proof (byte_pos _ Gp). pose proof (byte_pos _ Gpo). pose proof (computes_pos _ _ _ Cg).
      assert (X1 : (0 <= L * e)%Q) by (apply Qmult_le_0_compat; assumption).
      assert (X2 : (0 <= L * (p_s p * two_to (-44)))%Q) by (apply Qmult_le_0_compat; [exact L0|apply Qmult_le_0_compat; [lra|discriminate]]).
      assert (X3 : (0 <= p_s po * ((1#2) + two_to (-41)))%Q) by (apply Qmult_le_0_compat; [lra|discriminate]). lra.
    + destruct (step_sigmoid sg th nan p n op i o r f eta L po Ty Ei Hi Ho Gp Gpo Cg Li L0) as (ly & A & R).
      exists ly. split; [exact A|]. intros X _ HX. now apply R.
  - apply (Cons op p n po n p' n' (map f) (fun e => (L * e + D)%Q) F B ops); [| |exact (IH N0)].
    + intros e e0. assert (X1 : (0 <= L * e)%Q) by (apply Qmult_le_0_compat; assumption). lra.
    + destruct (step_tab sg th nan p n op kd i r f T L D po Ty Kd Ei Gp Dpo HT) as (ly & A & R).
      exists ly. split; [exact A|]. intros X NE HX. apply R; [exact (rows_concat p n X N0 NE HX)|exact HX].
Qed.

(** ** C91 *)
(** A file QuantizeLinear, operators, DequantizeLinear (or with any doubles between them and the caller) run in binary64: every output is within the accumulated
    error of the real network applied to the (saturated) input. *)
Theorem C91_network_error : forall sg th nan j q0 i0 is ops dq i1 is1 p n p' n' F B X,
  upper (jt_engine j) = chars_of "ONNX" -> jt_graph j = q0 :: ops ++ [dq] ->
  (exists i o, hd_error (jt_input j) = Some (Some i) /\ hd_error (jt_output j) = Some (Some o)) ->
  contains (chars_of "QUANT") (upper (jo_name q0)) = true ->
  is_op q0 OQuantize -> fb_in (jo_body q0) = i0 :: is -> has i0 p -> byte_params p ->
  chain sg p n ops p' n' F B ->
  is_op dq ODequantize -> fb_in (jo_body dq) = i1 :: is1 -> has i1 p' -> byte_params p' ->
  (0 < n)%nat -> X <> [] -> (forall x, In x X -> length x = n) ->
  exists Y, fo_execute sg th nan j (map (map Fin) X) = Ok (GF Y) /\
  Forall2 (fun x y => length y = n' /\ forall t, (t < n')%nat -> exists r, nth t y NaN = Fin r /\
    (Qabs (r - nth t (F (map (clip p) x)) 0) <= B (p_s p * ((1#2) + two_to (-41))) + p_s p' * two_to (-44))%Q) X Y.
Proof.
  intros sg th nan j q0 i0 is ops dq i1 is1 p n p' n' F B X En Gr (i & o & Hi & Ho) Nm T0 O0 (S0 & Z0) Gp Me T1 I1 (S1 & Z1) Gp' N0 NE LX.
  destruct (chain_run sg th nan p n ops p' n' F B Me N0) as (N' & ls & Bls & Run).
  pose proof (byte_usable _ Gp) as U. pose proof (byte_usable _ Gp') as U'. pose proof Gp as (Dp & _). pose proof Gp' as (Dp' & _).
  pose (qf := fun x : Q => quantf1 u8 (p_z p) (Fin (p_s p)) (Fin x)).
  set (C := map (map qf) X).
  assert (CC : Forall (codes p n) C).
  { apply Forall_map, Forall_forall. intros x Hx. split; [rewrite map_length; now apply LX|]. apply Forall_map, Forall_forall. intros v _.
    destruct U as (U1 & _ & U3 & _ & U5 & _). rewrite Dp in *. apply (quantf1_range u8 (p_z p) (p_s p) (Fin v) U1 (cw_zp _ _ _ U3) U5). discriminate. }
  assert (CN : C <> []) by (unfold C; destruct X; [contradiction|discriminate]).
  destruct (Run C ([] ++ [GI C]) CN CC) as (Yc & EY & FY).
  exists (map (map (dequantf1 (p_z p') (Fin (p_s p')))) Yc). split.
  - unfold fo_execute, seq_init.
    assert (Hi' : py_index (jt_input j) 0 = Ok (Some i)) by (destruct (jt_input j) as [|a r]; [discriminate|]; injection Hi as ->; reflexivity).
    assert (Ho' : py_index (jt_output j) 0 = Ok (Some o)) by (destruct (jt_output j) as [|a r]; [discriminate|]; injection Ho as ->; reflexivity).
    rewrite Hi', Ho'. cbn [rbind]. rewrite Gr. change (py_index (q0 :: ops ++ [dq]) 0) with (Ok q0). cbn [rbind].
    unfold get_engine. rewrite En. change (chars_eqb (chars_of "ONNX") (chars_of "TFLITE")) with false.
    change (chars_eqb (chars_of "ONNX") (chars_of "ONNX")) with true. cbn [rbind].
    assert (B0 : exists l0, build_operator (fo_builders sg th nan) q0 = Ok l0 /\ l0 (GF (map (map Fin) X)) = Ok (GI C)).
    { unfold build_operator. rewrite T0. cbn [rbind fo_builders b_onnx]. unfold fo_quantize. rewrite O0. change (py_index (i0 :: is) 0) with (Ok i0).
      cbn [rbind]. eexists. split; [reflexivity|]. cbn beta iota. rewrite S0, Z0. unfold C, qf. rewrite map_map. do 2 f_equal.
      apply map_ext. intros x. now rewrite map_map. }
    assert (Bd : exists l1, build_operator (fo_builders sg th nan) dq = Ok l1 /\ l1 (GI Yc) = Ok (GF (map (map (dequantf1 (p_z p') (Fin (p_s p')))) Yc))).
    { unfold build_operator. rewrite T1. cbn [rbind fo_builders b_onnx]. unfold fo_dequantize. rewrite I1. change (py_index (i1 :: is1) 0) with (Ok i1).
      cbn [rbind]. eexists. split; [reflexivity|]. cbn beta iota. rewrite S1, Z1. reflexivity. }
    destruct B0 as (l0 & B0 & R0). destruct Bd as (l1 & B1 & R1).
    assert (Bm : mapM (build_operator (fo_builders sg th nan)) (q0 :: ops ++ [dq]) = Ok (l0 :: ls ++ [l1])).
    { cbn [mapM]. rewrite B0. cbn [rbind]. rewrite (mapM_app _ ops [dq] ls [l1] Bls); [reflexivity|]. cbn [mapM]. rewrite B1. reflexivity. }
    rewrite Bm. cbn [rbind]. unfold seq_infer. cbn [sn_quant sn_layers]. rewrite Nm.
    destruct (run_layers (l0 :: ls ++ [l1]) (GF (map (map Fin) X)) []) as [it r] eqn:E. cbn [snd].
    apply (f_equal snd) in E. cbn [snd] in E. rewrite <- E. cbn [run_layers]. rewrite R0.
    rewrite (run_app ls [l1] (GI C) (GI Yc) _ EY). cbn [run_layers]. rewrite R1. reflexivity.
  - clear EY NE CN Run. unfold C in FY. clear C CC. revert Yc FY LX. induction X as [|x X IH]; intros Yc FY LX; inversion FY as [|? y ? Y' (Cy & St) FY' E1 E2]; subst.
    { constructor. }
    cbn [map]. constructor; [|apply IH; [exact FY'|intros z Hz; apply LX; now right]].
    destruct Cy as (Ly & Cy). split; [rewrite map_length; exact Ly|]. intros t Ht.
    pose proof (byte_pos _ Gp). pose proof (byte_pos _ Gp').
    assert (e0 : (0 <= p_s p * ((1#2) + two_to (-41)))%Q) by (apply Qmult_le_0_compat; [lra|discriminate]).
    assert (Kn : known p (map qf x) (map (clip p) x) (p_s p * ((1#2) + two_to (-41)))).
    { split; [now rewrite !map_length|]. intros a Ha. rewrite map_length in Ha.
      rewrite (nth_map_in qf x 0%Q) by exact Ha. rewrite (nth_map_in (clip p) x 0%Q) by exact Ha. unfold qf. rewrite <- Dp.
      exact (quant_value p 8 (nth a x 0%Q) U). }
    destruct (St _ _ e0 Kn) as (Lv & Kv). rewrite Ly in Kv. specialize (Kv t Ht).
    rewrite (nth_map_in (dequantf1 (p_z p') (Fin (p_s p'))) y 0) by (rewrite Ly; exact Ht). set (c := nth t y 0) in *.
    assert (Hc : in_dtype (p_d p') c) by (rewrite Forall_forall in Cy; apply Cy, nth_In; rewrite Ly; exact Ht).
    destruct (deq_value p' 8 c U' Hc) as (rv & Er & Ed). exists rv. split; [exact Er|]. change (8 - 52) with (-44) in Ed.
    set (Fv := nth t (F (map (clip p) x)) 0%Q) in *. set (be := B _) in *.
    apply Qabs_Qle_condition in Kv. apply Qabs_Qle_condition in Ed. apply Qabs_Qle_condition. split; lra.
Qed.

(** ** Tables the converter writes *)
(** the node of an activation table as onnx2json exports it: the plain table, the reduced one, offset 0 *)
Definition exported_lut (g : f64 -> f64) (p po : params) (depth mr : Z) : lut_json :=
  let T := create_LUT_f u8 g (Fin (p_s p)) (p_z p) (Fin (p_s po)) (p_z po) None in
  mklutj (Some T) (Some (serialize (mk_rlut T depth mr false))) (Some 0).
(** what quantizing the activation of a dequantized code gives *)
Definition direct (g : f64 -> f64) (p po : params) (q : Z) : Z := quantf1 u8 (p_z po) (Fin (p_s po)) (g (dequantf1 (p_z p) (Fin (p_s p)) q)).
Theorem C91_table_lookup : forall g p po depth mr i q, fn_lut i = Some (exported_lut g p po depth mr) -> uint8 q ->
  answers i q (direct g p po q).
Proof.
  intros g p po depth mr i q E [H1 H2]. unfold answers. rewrite E. unfold exported_lut. cbn [lut_from_node lj_reduced lj_table lj_offset].
  set (T := create_LUT_f _ _ _ _ _ _ _). eexists. split; [reflexivity|]. cbn [la_table la_offset lookup]. rewrite Z.add_0_r.
  destruct (C69_table u8 g (Fin (p_s p)) (p_z p) (Fin (p_s po)) (p_z po) q ltac:(cbn; lia) ltac:(split; cbn; lia)) as (_ & N). fold T in N.
  cbn [gmin u8] in N. rewrite Z.sub_0_r in N. apply (C11_lookup_lossless T depth mr) in N. rewrite Z2Nat.id in N by exact H1.
  rewrite quantize_f_none in N. unfold dequantize_f in N. cbn [scalar nd_map nd_get] in N. exact N.
Qed.
Lemma direct_range g p po q : byte_params po -> g (dequantf1 (p_z p) (Fin (p_s p)) q) <> NaN -> uint8 (direct g p po q).
Proof.
  intros G N. pose proof (byte_usable _ G) as U. pose proof G as (D & _). destruct U as (A1 & _ & A3 & _ & A5 & _). rewrite D in A1, A3.
  exact (quantf1_range u8 (p_z po) (p_s po) _ A1 (cw_zp _ _ _ A3) A5 N).
Qed.
(** The table condition of [chain] holds of every exported table, whatever the depth of the reduced form. *)
Theorem C91_exported_table : forall g f eta L p po depth mr i, fn_lut i = Some (exported_lut g p po depth mr) -> byte_params p -> byte_params po ->
  computes g f eta -> lipschitz1 f L -> (0 <= L)%Q ->
  forall q, uint8 q -> answers i q (direct g p po q) /\ uint8 (direct g p po q) /\
    forall a e, (Qabs (value p q - a) <= e ->
      Qabs (value po (direct g p po q) - clip po (f a)) <= L * e + (L * (p_s p * two_to (-44)) + eta + p_s po * ((1#2) + two_to (-41))))%Q.
Proof.
  intros g f eta L p po depth mr i E Gp Gpo Cg Li L0 q Hq. split; [now apply (C91_table_lookup g p po depth mr)|].
  pose proof (byte_usable _ Gp) as U. pose proof (byte_usable _ Gpo) as U'. pose proof Gp as (Dp & _). pose proof Gpo as (Dpo & _).
  assert (Hq' : in_dtype (p_d p) q) by (rewrite Dp; exact Hq).
  destruct (deq_value p 8 q U Hq') as (x & Dx & _). destruct (Cg x) as (y & Gy & Ey). split.
  - apply direct_range; [exact Gpo|]. rewrite Dx, Gy. discriminate.
  - intros a e Ha. unfold direct. rewrite Dx, Gy. change (-44) with (8 - 52). change (-41) with (8 - 49).
    eapply Qle_trans; [apply (entry_value p 8 po 8 g f eta L q _ x y 0 U U' Li L0 ltac:(lra) Hq' Dx Gy Ey); [|exact Ha]|].
    + rewrite Dpo, Z.sub_diag. discriminate.
    + apply Qplus_le_compat; [apply Qle_refl|]. apply Qplus_le_compat; [apply Qle_refl|]. rewrite Qplus_0_r. apply Qle_refl.
Qed.
(** ** Replacing operators by tables *)
Lemma lut_run op kd i r g p po depth mr sg th nan : is_op op kd -> kd = OSigmoidLUT \/ kd = OTanhLUT -> fb_in (jo_body op) = i :: r ->
  fn_lut i = Some (exported_lut g p po depth mr) ->
  exists l, build_operator (fo_builders sg th nan) op = Ok l /\
    forall X, concat X <> [] -> Forall (Forall uint8) X -> l (GI X) = Ok (GI (map (map (direct g p po)) X)).
Proof.
  intros Ty Kd Ei El. unfold build_operator. rewrite Ty. cbn [rbind].
  assert (Bk : b_onnx (fo_builders sg th nan) kd (jo_body op) = fe_lut (jo_body op)) by (destruct Kd as [-> | ->]; reflexivity).
  rewrite Bk. unfold fe_lut. rewrite Ei. change (py_index (i :: r) 0) with (Ok i). cbn [rbind].
  assert (LA : exists a, lut_from_node (fn_lut i) = Ok a) by (rewrite El; eexists; reflexivity). destruct LA as (a & LA). rewrite LA. cbn [rbind].
  eexists. split; [reflexivity|]. intros X NE HX. cbn beta iota. destruct (concat X) eqn:EC; [contradiction|].
  rewrite (mapM_ok_map _ (map (direct g p po))); [reflexivity|]. intros x Hx. apply mapM_ok_map. intros q Hq.
  rewrite Forall_forall in HX. specialize (HX x Hx). rewrite Forall_forall in HX.
  destruct (C91_table_lookup g p po depth mr i q El (HX q Hq)) as (a' & A1 & A2). rewrite LA in A1. apply Ok_inv in A1. subst a'. exact A2.
Qed.
(** A SigmoidLUT operator with the exported table answers bit for bit what QLinearSigmoid answers. *)
Theorem C91_sigmoid_lut : forall sg th nan op op' i o r i' r' p po depth mr,
  is_op op OSigmoid -> fb_in (jo_body op) = i :: o :: r -> has i p -> has o po ->
  is_op op' OSigmoidLUT -> fb_in (jo_body op') = i' :: r' -> fn_lut i' = Some (exported_lut sg p po depth mr) ->
  exists l l', build_operator (fo_builders sg th nan) op = Ok l /\ build_operator (fo_builders sg th nan) op' = Ok l' /\
    forall X, concat X <> [] -> Forall (Forall uint8) X -> exists Y, l (GI X) = Ok (GI Y) /\ l' (GI X) = Ok (GI Y).
Proof.
  intros sg th nan op op' i o r i' r' p po depth mr Ty Ei (S1 & Z1) (S2 & Z2) Ty' Ei' El.
  destruct (lut_run op' OSigmoidLUT i' r' sg p po depth mr sg th nan Ty' (or_introl eq_refl) Ei' El) as (l' & B' & R').
  unfold build_operator at 1. rewrite Ty. cbn [rbind fo_builders b_onnx]. unfold fo_sigmoid. rewrite Ei.
  change (py_index (i :: o :: r) 0) with (Ok i). rewrite (py_index_in_range (i :: o :: r) 1 o) by (cbn [length]; lia || reflexivity). cbn [rbind].
  eexists. exists l'. split; [reflexivity|]. split; [exact B'|]. intros X NE HX. cbn beta iota. rewrite S1, S2, Z1, Z2. eexists.
  split; [reflexivity|]. exact (R' X NE HX).
Qed.
(** Three operators DequantizeLinear, Tanh, QuantizeLinear and the TanhLUT the converter fuses them into answer the same, bit for bit. *)
Theorem C91_tanh_fusion : forall sg th nan d t q op' i o r ro i' r' p po depth mr,
  is_op d ODequantize -> fb_in (jo_body d) = i :: r -> has i p -> is_op t OTanh ->
  is_op q OQuantize -> fb_in (jo_body q) = o :: ro -> has o po ->
  is_op op' OTanhLUT -> fb_in (jo_body op') = i' :: r' -> fn_lut i' = Some (exported_lut th p po depth mr) ->
  exists ls l', mapM (build_operator (fo_builders sg th nan)) [d; t; q] = Ok ls /\ build_operator (fo_builders sg th nan) op' = Ok l' /\
    forall X inter, concat X <> [] -> Forall (Forall uint8) X -> exists Y, snd (run_layers ls (GI X) inter) = Ok (GI Y) /\ l' (GI X) = Ok (GI Y).
Proof.
  intros sg th nan d t q op' i o r ro i' r' p po depth mr Td Ed (S1 & Z1) Tt Tq Eq (S2 & Z2) Ty' Ei' El.
  destruct (lut_run op' OTanhLUT i' r' th p po depth mr sg th nan Ty' (or_intror eq_refl) Ei' El) as (l' & B' & R').
  cbn [mapM]. unfold build_operator at 1 2 3. rewrite Td, Tt, Tq. cbn [rbind fo_builders b_onnx]. unfold fo_dequantize, fo_tanh, fo_quantize. rewrite Ed, Eq.
  change (py_index (i :: r) 0) with (Ok i). change (py_index (o :: ro) 0) with (Ok o). cbn [rbind].
  eexists. exists l'. split; [reflexivity|]. split; [exact B'|]. intros X inter NE HX. cbn [run_layers snd]. rewrite S1, S2, Z1, Z2. eexists.
  split; [reflexivity|]. rewrite (R' X NE HX). do 2 f_equal. rewrite !map_map. apply map_ext. intros x. rewrite !map_map. reflexivity.
Qed.

(** ** A concrete file: two products, a bias, a ReLU as QLinearSigmoid's function, the input scale the double nearest 0.1 *)
Definition on_p0 := mkpar f0_1 128 u8.
Definition on_p1 := mkpar (1#8) 120 u8.
Definition on_p2 := mkpar (1#4) 0 u8.
Definition on_node (p : params) (t : ptensor) : fnode := mkfn (Fin (p_s p)) (p_z p) (chars_of "uint8") t None.
Definition on_w (m : ptensor) : fnode := mkfn (Fin (1#32)) 100 (chars_of "uint8") m None.
Definition on_W1 : list (list Z) := [[164; 68]; [116; 200]].
Definition on_W2 : list (list Z) := [[140; 76]].
Definition on_ops : list (jop fbody) :=
  [ex_op "QLinearMatMul" [on_node on_p0 PNone; on_w (PMat on_W1); on_node on_p1 PNone] [];
   ex_op "QLinearAdd" [on_node on_p1 PNone; on_w (PVec [110; 40]); on_node on_p1 PNone] [];
   ex_op "QLinearSigmoid" [on_node on_p1 PNone; on_node on_p1 PNone] [];
   ex_op "QLinearMatMul" [on_node on_p1 PNone; on_w (PMat on_W2); on_node on_p2 PNone] []].
Definition on_net : jnet fbody :=
  mkjnet (chars_of "onnx") (ex_op "QuantizeLinear" [on_node on_p0 PNone] [] :: on_ops ++ [ex_op "DequantizeLinear" [on_node on_p2 PNone] []])
    [Some (mkjnode None None)] [Some (mkjnode None None)].
Definition on_F (v : list Q) : list Q :=
  mm_real 2 (1#32) 100 on_W2 on_p2 (map (fun a => clip on_p1 (ex_relu a)) (add_real (1#32) 100 [110; 40] on_p1 (mm_real 2 (1#32) 100 on_W1 on_p1 v))).
Lemma fair_8 : fair (1#8).
Proof. split; [exists 1, (-3); (split; [lia|split; [lia|vm_compute; reflexivity]])|split; vm_compute; discriminate]. Qed.
Lemma fair_4 : fair (1#4).
Proof. split; [exists 1, (-2); (split; [lia|split; [lia|vm_compute; reflexivity]])|split; vm_compute; discriminate]. Qed.
Lemma fair_32 : fair (1#32).
Proof. split; [exists 1, (-5); (split; [lia|split; [lia|vm_compute; reflexivity]])|split; vm_compute; discriminate]. Qed.
Lemma on_b0 : byte_params on_p0. Proof. split; [reflexivity|]. split; [unfold uint8; cbn; lia|exact fair_f0_1]. Qed.
Lemma on_b1 : byte_params on_p1. Proof. split; [reflexivity|]. split; [unfold uint8; cbn; lia|exact fair_8]. Qed.
Lemma on_b2 : byte_params on_p2. Proof. split; [reflexivity|]. split; [unfold uint8; cbn; lia|exact fair_4]. Qed.
Lemma on_relu : computes ex_g ex_relu 0.
Proof. intros x. exists (ex_relu x). split; [reflexivity|]. setoid_replace (ex_relu x - ex_relu x)%Q with 0%Q by ring. discriminate. Qed.
Definition on_mm (p po : params) (K e : Q) : Q := (K * e + p_s po * (1#2) + p_s p * (1#32) * (1 # 2 ^ 19))%Q.
Definition on_add (p po : params) (e : Q) : Q := (e + p_s po * (1#2) + (p_s p + (1#32)) * (1 # 2 ^ 42))%Q.
Definition on_sig (p po : params) (e : Q) : Q := (1 * e + (1 * (p_s p * two_to (-44)) + 0 + p_s po * ((1#2) + two_to (-41))))%Q.
Definition on_B (e : Q) : Q := on_mm on_p1 on_p2 2 (on_sig on_p1 on_p1 (on_add on_p1 on_p1 (on_mm on_p0 on_p1 (29#8) e))).
Lemma on_chain : chain ex_g on_p0 2 on_ops on_p2 1 on_F on_B.
Proof.
  unfold on_B. pose proof on_b0 as G0. pose proof on_b1 as G1. pose proof on_b2 as G2. pose proof fair_32 as F32.
  apply (chain_matmul ex_g on_p0 2 _ (on_node on_p0 PNone) (on_w (PMat on_W1)) (on_node on_p1 PNone) [] on_W1 (1#32) 100 on_p1 (29#8) _ on_p2 1
    (fun v => mm_real 2 (1#32) 100 on_W2 on_p2 (map (fun a => clip on_p1 (ex_relu a)) (add_real (1#32) 100 [110; 40] on_p1 v)))
    (fun e => on_mm on_p1 on_p2 2 (on_sig on_p1 on_p1 (on_add on_p1 on_p1 e)))); try assumption; try exact (eq_refl _).
  - now split.
  - now split.
  - simpl. intros w [<- | [<- | []]]; reflexivity.
  - simpl; lia.
  - simpl. intros w x [<- | [<- | []]] Hx; simpl in Hx; lia.
  - simpl; lia.
  - simpl. intros c [<- | [<- | []]]; vm_compute; discriminate.
  - change (length on_W1) with (length [110; 40]).
    apply (chain_add ex_g on_p1 _ (on_node on_p1 PNone) (on_w (PVec [110; 40])) (on_node on_p1 PNone) [] [110; 40] (1#32) 100 on_p1 _ on_p2 1
      (fun v => mm_real 2 (1#32) 100 on_W2 on_p2 (map (fun a => clip on_p1 (ex_relu a)) v)) (fun e => on_mm on_p1 on_p2 2 (on_sig on_p1 on_p1 e)));
      try assumption; try exact (eq_refl _).
    + now split.
    + now split.
    + unfold uint8; lia.
    + simpl. unfold uint8. intros x [<- | [<- | []]]; lia.
    + apply (chain_sigmoid ex_g on_p1 _ _ (on_node on_p1 PNone) (on_node on_p1 PNone) [] ex_relu 0 1 on_p1 _ on_p2 1
        (mm_real 2 (1#32) 100 on_W2 on_p2) (on_mm on_p1 on_p2 2)); try assumption; try exact (eq_refl _).
      * now split.
      * now split.
      * exact on_relu.
      * exact ex_relu_lip.
      * discriminate.
      * apply (chain_matmul ex_g on_p1 2 _ (on_node on_p1 PNone) (on_w (PMat on_W2)) (on_node on_p2 PNone) [] on_W2 (1#32) 100 on_p2 2 [] on_p2 1 (fun v => v) (fun e => e));
          try assumption; try exact (eq_refl _).
        -- now split.
        -- now split.
        -- simpl. intros w [<- | []]; reflexivity.
        -- simpl; lia.
        -- simpl. intros w x [<- | []] Hx; simpl in Hx; lia.
        -- simpl; lia.
        -- simpl. intros c [<- | []]; vm_compute; discriminate.
        -- apply chain_nil.
Qed.
Lemma on_bound : (on_B (f0_1 * ((1#2) + two_to (-41))) + (1#4) * two_to (-44) <= 7#8)%Q.
Proof. vm_compute; discriminate. Qed.
(** Every output of every batch is within 0.875 (3.5 output steps) of the real network. *)
Example C91_example : forall th nan X, X <> [] -> (forall x, In x X -> length x = 2%nat) ->
  exists Y, fo_execute ex_g th nan on_net (map (map Fin) X) = Ok (GF Y) /\
  Forall2 (fun x y => exists r, nth 0 y NaN = Fin r /\ (Qabs (r - nth 0 (on_F (map (clip on_p0) x)) 0) <= 7#8)%Q) X Y.
Proof.
  intros th nan X NE LX. pose proof on_chain as Me. pose proof on_bound as Bd. pose proof on_b0 as G0. pose proof on_b2 as G2.
  destruct (C91_network_error ex_g th nan on_net (ex_op "QuantizeLinear" [on_node on_p0 PNone] []) (on_node on_p0 PNone) [] on_ops
    (ex_op "DequantizeLinear" [on_node on_p2 PNone] []) (on_node on_p2 PNone) [] on_p0 2 on_p2 1 on_F on_B X) as (Y & E & FY);
    try exact (eq_refl _); try exact G0; try exact G2; try exact Me; try exact NE; try exact LX.
  - now exists (mkjnode None None), (mkjnode None None).
  - now split.
  - now split.
  - lia.
  - exists Y. split; [exact E|]. clear E. eapply PropEngine.Forall2_weaken; [|exact FY]. cbn beta. intros x y (_ & H).
    destruct (H 0%nat ltac:(lia)) as (r & R1 & R2). exists r. split; [exact R1|]. eapply Qle_trans; [exact R2|exact Bd].
Qed.
(** Two samples in one batch: the real network gives 6.375 and 0. *)
Example C91_example_run : forall th nan, fo_execute ex_g th nan on_net [[Fin 3%Q; Fin (1#2)]; [Fin (-7)%Q; Fin 100%Q]] = Ok (GF [[Fin (25#4)]; [Fin 0%Q]]).
Proof. intros th nan. vm_compute. reflexivity. Qed.

(** ** A batch of the wrong width *)
Lemma dot32_len a b : length a <> length b -> dot32 a b = Err EValueError.
Proof.
  revert b. induction a as [|x a IH]; intros [|y b] H; cbn [dot32 length] in *; try congruence. rewrite IH by lia. reflexivity.
Qed.
Lemma mapM_all_or {A B} (f : A -> res B) e l : (forall a, (exists b, f a = Ok b) \/ f a = Err e) -> (exists a, In a l /\ f a = Err e) -> mapM f l = Err e.
Proof.
  intros H. induction l as [|a l IH]; intros (x & Hx & E); [destruct Hx|]. cbn [mapM]. destruct (H a) as [(b & Eb)|Ea]; [|now rewrite Ea].
  rewrite Eb. cbn [rbind]. destruct Hx as [-> |Hx]; [congruence|]. rewrite IH; [reflexivity|]. now exists x.
Qed.
Lemma dot32_total a b : (exists z, dot32 a b = Ok z) \/ dot32 a b = Err EValueError.
Proof.
  revert b. induction a as [|x a IH]; intros [|y b]; cbn [dot32]; eauto. destruct (IH b) as [(z & ->)| ->]; cbn [rbind]; eauto.
Qed.
(** numpy raises ValueError as soon as one row of the batch does not fit the weights; nothing else can go wrong in the product. *)
Theorem C91_bad_width : forall sg th nan op i w o r W l, is_op op OMatMul -> fb_in (jo_body op) = i :: w :: o :: r -> fn_tensor w = PMat W ->
  build_operator (fo_builders sg th nan) op = Ok l -> forall X,
  ((exists x c, In x X /\ In c W /\ length c <> length x) -> l (GI X) = Err EValueError) /\
  ((forall x c, In x X -> In c W -> length c = length x) -> exists Y, l (GI X) = Ok (GI Y)).
Proof.
  intros sg th nan op i w o r W l Ty Ei Tw Bl X. unfold build_operator in Bl. rewrite Ty in Bl. cbn [rbind fo_builders b_onnx] in Bl. unfold fo_matmul in Bl. rewrite Ei in Bl.
  change (py_index (i :: w :: o :: r) 0) with (Ok i) in Bl. rewrite (py_index_in_range (i :: w :: o :: r) 1 w) in Bl by (cbn [length]; lia || reflexivity).
  rewrite (py_index_in_range (i :: w :: o :: r) 2 o) in Bl by (cbn [length]; lia || reflexivity). cbn [rbind] in Bl. rewrite Tw in Bl.
  destruct (finite (fn_scale i)) as [a|]; cbn [rbind] in Bl; [|discriminate]. destruct (finite (fn_scale w)) as [b|]; cbn [rbind] in Bl; [|discriminate].
  destruct (finite (fn_scale o)) as [c|]; cbn [rbind] in Bl; [|discriminate].
  destruct (qmm_build_f a (fn_zp i) W b (fn_zp w) c (fn_zp o)) as [q|] eqn:Bq; cbn [rbind] in Bl; [|discriminate].
  assert (Wq : fm_w q = W).
  { unfold qmm_build_f in Bq. destruct (py_div_f _ _) as [m|]; cbn [rbind] in Bq; [|discriminate]. apply Ok_inv in Bq. now subst q. }
  apply Ok_inv in Bl. subst l. cbn beta iota. unfold qmm_infer_f.
  assert (RT : forall x, (exists y, qmm_row_f nan q x = Ok y) \/ qmm_row_f nan q x = Err EValueError).
  { intros x. unfold qmm_row_f. generalize (fm_w q). intros V. induction V as [|v V IH]; cbn [mapM rbind]; [eauto|].
    destruct (dot32_total (map (fun v0 : Z => i32 (i32 v0 - fm_izp q)) x) (map (fun v0 : Z => i32 (i32 v0 - fm_wzp q)) v)) as [(z & ->)| ->]; cbn [rbind]; [|eauto].
    destruct IH as [(y & IH)|IH]; destruct (mapM _ V) as [t|e]; cbn [rbind] in *; try discriminate; [eauto|right]. congruence. }
  split.
  - intros (x & v & Hx & Hv & N). rewrite (mapM_all_or _ EValueError X RT); [reflexivity|]. exists x. split; [exact Hx|]. unfold qmm_row_f.
    rewrite (mapM_all_or _ EValueError (fm_w q)); [reflexivity| |].
    + intros u. apply dot32_total.
    + exists v. split; [now rewrite Wq|]. apply dot32_len. rewrite !map_length. congruence.
  - intros H. rewrite (mapM_ok_map _ (fun x => map (fun v => qmm1_f nan q (i32 (sumZ_upto (length x) (fun k => (nth k x 0 - fm_izp q) * (nth k v 0 - fm_wzp q))))) (fm_w q))).
    + cbn [rbind]. eauto.
    + intros x Hx. pose proof (mm_row nan q x ltac:(intros v Hv; rewrite Wq in Hv; now apply H)) as R. cbn [qmm_infer_f] in R.
      destruct (qmm_row_f nan q x) as [y|]; cbn [rbind] in R; [|discriminate]. congruence.
Qed.
