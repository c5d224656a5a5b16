(** Property C75: a dense network run by the engine in binary64 arithmetic computes the real-valued network its file describes, up to an explicit error. *)
From Verif Require Import Base BaseProofs DtypeModel QuantModel QuantProofs LutModel FcModel FcProofs FcLayer EngineModel EngineProofs PropCore PropFc
  FloatModel FloatProofs FloatQuant PropFloat FloatFcModel PropFloatFc PipeModel FloatEngineModel.
From Coq Require Import Lqa Qpower Qminmax.
Open Scope Z_scope.
Open Scope list_scope.

(** ** Specification *)
(** Codes of type [d] with scale [s] and zero point [z]. *)
Record params := mkpar { p_s : Q; p_z : Z; p_d : gdtype }.
Definition value (p : params) (q : Z) : Q := (p_s p * inject_Z (q - p_z p))%Q.
(** Saturation at the ends of the representable range. *)
Definition clip (p : params) (r : Q) : Q := Qmax (value p (gmin (p_d p))) (Qmin (value p (gmax (p_d p))) r).
(** One neuron of the real network the file describes: kernel codes [w] with scale [sk] and zero point [zk], bias code [b] in units of [si * sk]. *)
Definition neuron (n : nat) (si sk : Q) (zk : Z) (w : list Z) (b : Z) (v : list Q) : Q :=
  (sumQ_upto n (fun i => nth i v 0 * (sk * inject_Z (nth i w 0%Z - zk))) + si * sk * inject_Z b)%Q.
Definition fc_real (n : nat) (si sk : Q) (zk : Z) (W : list (list Z)) (b : list Z) (o : params) (v : list Q) : list Q :=
  map (fun j => clip o (neuron n si sk zk (nth j W []) (nth j b 0) v)) (seq 0 (length W)).
(** what the operators need of a node's parameters in this proof *)
Definition usable (p : params) (k : Z) : Prop :=
  within_int32 (p_d p) /\ diff_in_int32 (p_d p) (p_z p) /\ codes_within (p_d p) (p_z p) k /\ double (p_s p) /\ (0 < p_s p)%Q /\ (p_s p <= two_to (1022 - k))%Q.
Definition node_is (f : fnode) (p : params) : Prop := fn_scale f = Fin (p_s p) /\ fn_zp f = p_z p /\ parse_dtype (fn_dtype f) = Ok (p_d p).
Definition codes (p : params) (n : nat) (x : list Z) : Prop := length x = n /\ Forall (in_dtype (p_d p)) x.
Definition is_type (op : jop fbody) (k : kind) : Prop := build_layer_kind (jo_type op) = Ok k.
(** [means p n ops p' n' F B]: on codes with parameters [p], rows of width [n], the operators compute the real function [F]; an input known up to [e]
    gives an output up to [B e]. *)
Inductive means : params -> nat -> list (jop fbody) -> params -> nat -> (list Q -> list Q) -> (Q -> Q) -> Prop :=
| means_nil p n : means p n [] p n (fun v => v) (fun e => e)
| means_fc p n op i k b o W bv sk zk po K ops p' n' F B :
    is_type op KFullyConnected -> fb_in (jo_body op) = [i; k; b] -> fb_out (jo_body op) = [o] ->
    fn_scale i = Fin (p_s p) -> fn_zp i = p_z p -> fn_scale k = Fin sk -> fn_zp k = zk -> node_is o po ->
    fn_tensor k = PMat W -> fn_tensor b = PVec bv ->
    (forall w, In w W -> length w = n) -> length bv = length W -> (0 < length W)%nat ->
    (* scales: positive, product neither under- nor overflowing, multiplier between 1.000001e-6 and 2^30 - 1 *)
    (0 < p_s p)%Q -> (0 < sk)%Q -> (0 < p_s po)%Q -> (two_to (-1022) <= p_s p * sk <= two_to 1022)%Q ->
    ((1000001 # 1000000000000) <= p_s p * sk / p_s po)%Q -> (p_s p * sk / p_s po < inject_Z (2 ^ 30 - 1))%Q ->
    gmin (p_d po) <= gmax (p_d po) -> Z.abs (p_z po) <= 2 ^ 62 ->
    (* no accumulator leaves 32 bits *)
    (forall x j, codes p n x -> (j < length W)%nat -> Z.abs (exact_acc (p_z p) zk x (nth j W []) (nth j bv 0)) <= 2 ^ 31) ->
    (* K: the largest absolute weight sum of a neuron *)
    (forall j, (j < length W)%nat -> (sumQ_upto n (fun i => Qabs (sk * inject_Z (nth i (nth j W []) 0%Z - zk))) <= K)%Q) ->
    means po (length W) ops p' n' F B ->
    means p n (op :: ops) p' n' (fun v => F (fc_real n (p_s p) sk zk W bv po v))
      (fun e => B (K * e + p_s po * (1#2) + p_s p * sk * (1 + (1 # 2 ^ 19)))%Q)
| means_lut p n op i ir off T f L D po ops p' n' F B kd :
    is_type op kd -> kd = KTanhLUT \/ kd = KSigmoidLUT -> fb_in (jo_body op) = i :: ir ->
    fn_lut i = Some (mklutj (Some T) None (Some off)) ->
    (* the table covers the codes, holds codes of the output type, and is the function [f] up to [D] *)
    (0 <= L)%Q -> (0 <= D)%Q ->
    (forall q, in_dtype (p_d p) q -> 0 <= q + off < Z.of_nat (length T) /\ in_dtype (p_d po) (nth (Z.to_nat (q + off)) T 0) /\
       forall a e, (Qabs (value p q - a) <= e -> Qabs (value po (nth (Z.to_nat (q + off)) T 0%Z) - f a) <= L * e + D)%Q) ->
    means po n ops p' n' F B ->
    means p n (op :: ops) p' n' (fun v => F (map f v)) (fun e => B (L * e + D)%Q).
(** [v] is known from the codes up to [e], entry by entry. *)
Definition known (p : params) (x : list Z) (v : list Q) (e : Q) : Prop :=
  length v = length x /\ forall i, (i < length x)%nat -> (Qabs (value p (nth i x 0%Z) - nth i v 0) <= e)%Q.

(** ** Proofs *)
Lemma clip_nonexp p a b e : (Qabs (a - b) <= e)%Q -> (Qabs (clip p a - clip p b) <= e)%Q.
Proof.
  intros H. apply Qabs_Qle_condition in H. destruct H as (H1 & H2). unfold clip. apply Qabs_Qle_condition.
  generalize (value p (gmin (p_d p))) (value p (gmax (p_d p))). intros lo hi.
  destruct (Q.max_spec lo (Qmin hi a)) as [[A1 ->]|[A1 ->]], (Q.max_spec lo (Qmin hi b)) as [[B1 ->]|[B1 ->]],
    (Q.min_spec hi a) as [[C1 C2]|[C1 C2]], (Q.min_spec hi b) as [[D1 D2]|[D1 D2]]; rewrite ?C2, ?D2 in *; split; lra.
Qed.
Lemma clip_scaled p r : (0 < p_s p)%Q -> gmin (p_d p) <= gmax (p_d p) ->
  (p_s p * (clampQ (gmin (p_d p)) (gmax (p_d p)) (inject_Z (p_z p) + r / p_s p) - inject_Z (p_z p)) == clip p r)%Q.
Proof.
  intros P L. unfold clip, value, clampQ. destruct p as [s z d]. cbn [p_s p_z p_d] in *. rewrite !inject_Z_minus.
  assert (LQ : (inject_Z (gmin d) <= inject_Z (gmax d))%Q) by (apply (proj1 (Zle_inj _ _)); exact L).
  set (lo := inject_Z (gmin d)) in *. set (hi := inject_Z (gmax d)) in *. set (zq := inject_Z z). clearbody lo hi zq.
  assert (E : (r == s * (r / s))%Q) by (field; lra). set (t := (r / s)%Q) in *. clearbody t.
  assert (M : forall a b, (a <= b -> s * a <= s * b)%Q) by (intros a b H; rewrite !(Qmult_comm s); apply Qmult_le_compat_r; lra).
  destruct (Qlt_le_dec (zq + t) lo) as [A|A].
  - pose proof (M t (lo - zq)%Q ltac:(lra)). rewrite Q.max_l; [lra|]. rewrite E. eapply Qle_trans; [apply Q.le_min_r|]. assumption.
  - destruct (Qlt_le_dec hi (zq + t)) as [C|C].
    + pose proof (M (hi - zq)%Q t ltac:(lra)). pose proof (M (lo - zq)%Q (hi - zq)%Q ltac:(lra)).
      rewrite Q.min_l by (rewrite E; assumption). rewrite Q.max_r by assumption. lra.
    + pose proof (M t (hi - zq)%Q ltac:(lra)). pose proof (M (lo - zq)%Q t ltac:(lra)).
      rewrite Q.min_r by (rewrite E; assumption). rewrite Q.max_r by (rewrite E; assumption). rewrite E. ring.
Qed.
(** QUANTIZE in doubles, saturating. *)
Lemma quant_err d zp s x k : within_int32 d -> codes_within d zp k -> (0 < s)%Q -> gmin d <= gmax d ->
  (Qabs (inject_Z (quantf1 d zp (Fin s) (Fin x)) - clampQ (gmin d) (gmax d) (inject_Z zp + x / s)) <= (1#2) + two_to (k - 49))%Q.
Proof.
  intros A B P L. assert (N : ~ (s == 0)%Q) by lra. pose proof (cw_bound _ _ _ B) as DB.
  change (two_to (k - 49)) with (pow2 (k - 49)). pose proof (pow2_pos (k - 49)) as Pk.
  unfold clampQ. set (lo := inject_Z (gmin d)). set (hi := inject_Z (gmax d)).
  assert (Cz : (inject_Z zp + x / s == x / s + inject_Z zp)%Q) by ring.
  pose proof (quantf1_range d zp s (Fin x) A (cw_zp _ _ _ B) P ltac:(discriminate)) as (R1 & R2).
  assert (Mo : forall y, (x <= y)%Q -> quantf1 d zp (Fin s) (Fin x) <= quantf1 d zp (Fin s) (Fin y)) by (intros y H; apply quantf1_mono; [exact A|exact (cw_zp _ _ _ B)|exact P|exact H]).
  assert (Mo' : forall y, (y <= x)%Q -> quantf1 d zp (Fin s) (Fin y) <= quantf1 d zp (Fin s) (Fin x)) by (intros y H; apply quantf1_mono; [exact A|exact (cw_zp _ _ _ B)|exact P|exact H]).
  assert (At : forall c, gmin d <= c <= gmax d -> (Qabs (inject_Z (quantf1 d zp (Fin s) (Fin ((inject_Z c - inject_Z zp) * s)%Q)) - inject_Z c) <= (1#2) + pow2 (k - 49))%Q).
  { intros c Hc. assert (E : ((inject_Z c - inject_Z zp) * s / s + inject_Z zp == inject_Z c)%Q) by (field; lra).
    assert (X := quantf1_code_err d zp s ((inject_Z c - inject_Z zp) * s) k A DB N). rewrite E in X. apply X. split; apply (proj1 (Zle_inj _ _)); lia. }
  destruct (Qlt_le_dec (inject_Z zp + x / s) lo) as [H|H].
  - assert (Hx : (x <= (lo - inject_Z zp) * s)%Q).
    { setoid_replace x with (x / s * s)%Q by (field; lra). apply Qmult_le_compat_r; lra. }
    specialize (At (gmin d) ltac:(lia)). fold lo in At. specialize (Mo _ Hx). apply Qabs_Qle_condition in At. apply Qabs_Qle_condition.
    apply Zle_inj in Mo. apply Zle_inj in R1. fold lo in R1. split; lra.
  - destruct (Qlt_le_dec hi (inject_Z zp + x / s)) as [H'|H'].
    + assert (Hx : ((hi - inject_Z zp) * s <= x)%Q).
      { setoid_replace x with (x / s * s)%Q by (field; lra). apply Qmult_le_compat_r; lra. }
      specialize (At (gmax d) ltac:(lia)). fold hi in At. specialize (Mo' _ Hx). apply Qabs_Qle_condition in At. apply Qabs_Qle_condition.
      apply Zle_inj in Mo'. apply Zle_inj in R2. fold hi in R2. split; lra.
    + rewrite Cz. apply (quantf1_code_err d zp s x k A DB N). rewrite <- Cz. split; assumption.
Qed.
Lemma acc_err l (x w : nat -> Z) (v : nat -> Q) si sk e : (forall i, In i l -> (Qabs (si * inject_Z (x i) - v i) <= e)%Q) ->
  (Qabs (si * sk * inject_Z (fold_right Z.add 0%Z (map (fun i => x i * w i)%Z l)) - fold_right Qplus 0 (map (fun i => v i * (sk * inject_Z (w i))) l))
   <= e * fold_right Qplus 0 (map (fun i => Qabs (sk * inject_Z (w i))) l))%Q.
Proof.
  induction l as [|i l IH]; intros H; cbn [map fold_right].
  - change (inject_Z 0) with 0%Q. setoid_replace (si * sk * 0 - 0)%Q with 0%Q by ring. setoid_replace (e * 0)%Q with 0%Q by ring. discriminate.
  - specialize (IH (fun j Hj => H j (or_intror Hj))). specialize (H i (or_introl eq_refl)). rewrite inject_Z_plus, inject_Z_mult.
    set (A := fold_right Z.add 0 _) in *. set (Bq := fold_right Qplus 0%Q (map (fun i0 => (v i0 * (sk * inject_Z (w i0)))%Q) l)) in *.
    set (Cq := fold_right Qplus 0%Q (map (fun i0 => Qabs (sk * inject_Z (w i0))%Q) l)) in *.
    setoid_replace (si * sk * (inject_Z (x i) * inject_Z (w i) + inject_Z A) - (v i * (sk * inject_Z (w i)) + Bq))%Q
      with ((si * inject_Z (x i) - v i) * (sk * inject_Z (w i)) + (si * sk * inject_Z A - Bq))%Q by ring.
    eapply Qle_trans; [apply Qabs_triangle|]. rewrite Qabs_Qmult.
    setoid_replace (e * (Qabs (sk * inject_Z (w i)) + Cq))%Q with (e * Qabs (sk * inject_Z (w i)) + e * Cq)%Q by ring.
    apply Qplus_le_compat; [apply Qmult_le_compat_r; [exact H|apply Qabs_nonneg]|exact IH].
Qed.
Lemma neuron_err p n x v e sk zk w b : length x = n -> known p x v e ->
  (Qabs (p_s p * sk * inject_Z (exact_acc (p_z p) zk x w b) - neuron n (p_s p) sk zk w b v)
   <= e * sumQ_upto n (fun i => Qabs (sk * inject_Z (nth i w 0%Z - zk))))%Q.
Proof.
  intros L (_ & K). unfold exact_acc, neuron. rewrite L, inject_Z_plus.
  setoid_replace (p_s p * sk * (inject_Z (sumZ_upto n (fun i => (nth i x 0 - p_z p) * (nth i w 0 - zk))%Z) + inject_Z b) -
    (sumQ_upto n (fun i => nth i v 0 * (sk * inject_Z (nth i w 0%Z - zk))) + p_s p * sk * inject_Z b))%Q
    with (p_s p * sk * inject_Z (sumZ_upto n (fun i => (nth i x 0 - p_z p) * (nth i w 0 - zk))%Z) -
          sumQ_upto n (fun i => nth i v 0 * (sk * inject_Z (nth i w 0%Z - zk))))%Q by ring.
  apply (acc_err (seq 0 n) (fun i => nth i x 0 - p_z p)%Z (fun i => nth i w 0 - zk)%Z (fun i => nth i v 0%Q)).
  intros i Hi. apply in_seq in Hi. apply K. lia.
Qed.
(** What one operator does to one row. *)
Definition row_step (p : params) (n : nat) (po : params) (no : nat) (F : list Q -> list Q) (E : Q -> Q) (x y : list Z) : Prop :=
  codes po no y /\ forall v e, (0 <= e)%Q -> known p x v e -> known po y (F v) (E e).
Lemma build_fc op i k b o l p po W bv sk zk : is_type op KFullyConnected -> fb_in (jo_body op) = [i; k; b] -> fb_out (jo_body op) = [o] ->
  fn_scale i = Fin (p_s p) -> fn_zp i = p_z p -> fn_scale k = Fin sk -> fn_zp k = zk -> node_is o po -> fn_tensor k = PMat W -> fn_tensor b = PVec bv ->
  fc_build_f (Fin (p_s p)) (p_z p) (Fin sk) zk W bv (Fin (p_s po)) (p_z po) (p_d po) = Ok l ->
  exists ly, build_layer fe_builders op = Ok ly /\
    forall X Y, Forall2 (fun x y => fc_infer l (T1 x) = Ok (T1 y)) X Y -> ly (GI X) = Ok (GI Y).
Proof.
  intros Ty Ei Eo S1 Z1 S2 Z2 (S3 & Z3 & D3) Tk Tb Bl. unfold build_layer. rewrite Ty. cbn [rbind fe_builders b_tflite].
  unfold fe_fc. rewrite Ei, Eo. cbn [py_index length]. change (py_index [i; k; b] 0) with (Ok i). change (py_index [i; k; b] 1) with (Ok k).
  change (py_index [i; k; b] 2) with (Ok b). change (py_index [o] 0) with (Ok o). cbn [rbind]. rewrite Tk, Tb, S1, S2, S3, Z1, Z2, Z3.
  unfold fc_build_f in Bl |- *. destruct (fc_mult_build_f (Fin (p_s p)) (Fin sk) (Fin (p_s po))) as [m|] eqn:M; cbn [rbind] in Bl |- *; [|discriminate].
  rewrite D3. cbn [rbind]. injection Bl as Bl. rewrite Bl. eexists. split; [reflexivity|]. intros X Y H. cbn beta iota.
  apply C16_batch_is_rowwise in H. rewrite H. reflexivity.
Qed.
Lemma fc_codes l x y d : (forall a, in_dtype d (fc_requant l a)) -> fc_infer l (T1 x) = Ok (T1 y) -> Forall (in_dtype d) y.
Proof.
  intros H E. cbn [fc_infer] in E. destruct (fc_acc_1d l x) as [a|]; [|discriminate]. cbn [rbind] in E. injection E as <-.
  apply Forall_forall. intros v Hv. apply in_map_iff in Hv. destruct Hv as (u & <- & _). apply H.
Qed.
Lemma step_fc p n op i k b o W bv sk zk po K :
    is_type op KFullyConnected -> fb_in (jo_body op) = [i; k; b] -> fb_out (jo_body op) = [o] ->
    fn_scale i = Fin (p_s p) -> fn_zp i = p_z p -> fn_scale k = Fin sk -> fn_zp k = zk -> node_is o po ->
    fn_tensor k = PMat W -> fn_tensor b = PVec bv ->
    (forall w, In w W -> length w = n) -> length bv = length W -> (0 < length W)%nat ->
    (0 < p_s p)%Q -> (0 < sk)%Q -> (0 < p_s po)%Q -> (two_to (-1022) <= p_s p * sk <= two_to 1022)%Q ->
    ((1000001 # 1000000000000) <= p_s p * sk / p_s po)%Q -> (p_s p * sk / p_s po < inject_Z (2 ^ 30 - 1))%Q ->
    gmin (p_d po) <= gmax (p_d po) -> Z.abs (p_z po) <= 2 ^ 62 ->
    (forall x j, codes p n x -> (j < length W)%nat -> Z.abs (exact_acc (p_z p) zk x (nth j W []) (nth j bv 0)) <= 2 ^ 31) ->
    (forall j, (j < length W)%nat -> (sumQ_upto n (fun i => Qabs (sk * inject_Z (nth i (nth j W []) 0%Z - zk))) <= K)%Q) ->
  exists ly, build_layer fe_builders op = Ok ly /\
    forall X, Forall (codes p n) X -> exists Y, ly (GI X) = Ok (GI Y) /\
      Forall2 (row_step p n po (length W) (fc_real n (p_s p) sk zk W bv po) (fun e => (K * e + p_s po * (1#2) + p_s p * sk * (1 + (1 # 2 ^ 19)))%Q)) X Y.
Proof.
  intros Ty Ei Eo S1 Z1 S2 Z2 No Tk Tb LW Lb L0 P1 P2 P3 R M1 M2 Gd Gz Acc HK.
  assert (Row : forall x, codes p n x -> exists l y, fc_build_f (Fin (p_s p)) (p_z p) (Fin sk) zk W bv (Fin (p_s po)) (p_z po) (p_d po) = Ok l /\
     fc_infer l (T1 x) = Ok (T1 y) /\ row_step p n po (length W) (fc_real n (p_s p) sk zk W bv po) (fun e => (K * e + p_s po * (1#2) + p_s p * sk * (1 + (1 # 2 ^ 19)))%Q) x y).
  { intros x Cx. pose proof Cx as (Lx & _).
    assert (GS : good_shapes W bv x) by (split; [intros w Hw; rewrite Lx; now apply LW|exact Lb]).
    destruct (C74_accuracy (p_s p) (p_z p) sk zk W bv (p_s po) (p_z po) (p_d po) x P3 R M1 M2 GS Gd Gz) as (l & y & Bl & I0 & Ly & Ey).
    exists l, y. split; [exact Bl|]. split; [exact I0|]. split.
    - split; [exact Ly|]. apply (fc_codes l x y (p_d po)); [|exact I0]. unfold fc_build_f in Bl.
      destruct (fc_mult_build_f _ _ _) as [m|]; cbn [rbind] in Bl; [|discriminate]. injection Bl as <-.
      intros a. apply (fc_requant_range (mkfc _ _ _ _ _ _)). exact Gd.
    - intros v e e0 Kn. split; [unfold fc_real; rewrite map_length, seq_length; symmetry; exact Ly|].
      intros j Hj. rewrite Ly in Hj. specialize (Ey j Hj (Acc x j Cx Hj)). cbv zeta in Ey.
      unfold fc_real. rewrite (nth_indep _ 0%Q (clip po (neuron n (p_s p) sk zk (nth 0 W []) (nth 0 bv 0) v))) by (rewrite map_length, seq_length; exact Hj).
      rewrite (map_nth (fun j => clip po (neuron n (p_s p) sk zk (nth j W []) (nth j bv 0) v)) (seq 0 (length W)) 0%nat j). rewrite seq_nth by exact Hj. cbn [Nat.add].
      set (acc := exact_acc (p_z p) zk x (nth j W []) (nth j bv 0)) in *.
      pose proof (neuron_err p n x v e sk zk (nth j W []) (nth j bv 0) Lx Kn) as NE. fold acc in NE.
      set (r := neuron n (p_s p) sk zk (nth j W []) (nth j bv 0) v) in *.
      set (t := (p_s p * sk * inject_Z acc)%Q) in *.
      assert (NE' : (Qabs (t - r) <= K * e)%Q).
      { eapply Qle_trans; [exact NE|]. rewrite (Qmult_comm e). apply Qmult_le_compat_r; [apply HK; exact Hj|exact e0]. }
      apply (clip_nonexp po) in NE'.
      pose proof (clip_scaled po t P3 Gd) as CS.
      assert (Et : (t / p_s po == p_s p * sk / p_s po * inject_Z acc)%Q) by (unfold t; field; lra).
      assert (Ec : forall a b, (a == b)%Q -> (clampQ (gmin (p_d po)) (gmax (p_d po)) a == clampQ (gmin (p_d po)) (gmax (p_d po)) b)%Q).
      { intros a c Eab. unfold clampQ. destruct (Qlt_le_dec a (inject_Z (gmin (p_d po)))), (Qlt_le_dec c (inject_Z (gmin (p_d po)))), (Qlt_le_dec (inject_Z (gmax (p_d po))) a), (Qlt_le_dec (inject_Z (gmax (p_d po))) c); lra. }
      rewrite (Ec _ (inject_Z (p_z po) + p_s p * sk / p_s po * inject_Z acc)%Q) in CS by (rewrite Et; reflexivity).
      set (cl := clampQ _ _ _) in *. set (yj := nth j y 0) in *. unfold value. rewrite inject_Z_minus.
      assert (Sc : (Qabs (p_s po * (inject_Z yj - cl)) <= p_s po * (1#2) + p_s p * sk * (1 + (1 # 2 ^ 19)))%Q).
      { rewrite Qabs_Qmult, (Qabs_pos (p_s po)) by lra.
        eapply Qle_trans; [rewrite Qmult_comm; apply Qmult_le_compat_r; [exact Ey|lra]|].
        setoid_replace (((1 # 2) + inject_Z (Z.abs acc) * (p_s p * sk / p_s po * (u31 + u50))) * p_s po)%Q
          with (p_s po * (1#2) + inject_Z (Z.abs acc) * (u31 + u50) * (p_s p * sk))%Q by (field; lra).
        apply Qplus_le_compat; [apply Qle_refl|]. rewrite (Qmult_comm (p_s p * sk)). apply Qmult_le_compat_r; [|apply Qmult_le_0_compat; lra].
        eapply Qle_trans; [apply (Qmult_le_compat_r (inject_Z (Z.abs acc)) (inject_Z (2 ^ 31)) (u31 + u50)); [apply (proj1 (Zle_inj (Z.abs acc) (2 ^ 31))); exact (Acc x j Cx Hj)|discriminate]|]. vm_compute. discriminate. }
      setoid_replace (p_s po * (inject_Z yj - inject_Z (p_z po)) - clip po r)%Q
        with (p_s po * (inject_Z yj - cl) + (clip po t - clip po r))%Q by (rewrite <- CS; ring).
      eapply Qle_trans; [apply Qabs_triangle|]. lra. }
  destruct (C74_accuracy (p_s p) (p_z p) sk zk W bv (p_s po) (p_z po) (p_d po) (repeat 0 n) P3 R M1 M2) as (l & _ & Bl & _ & _);
    [split; [intros w Hw; rewrite repeat_length; now apply LW|exact Lb]|exact Gd|exact Gz|].
  destruct (build_fc op i k b o l p po W bv sk zk Ty Ei Eo S1 Z1 S2 Z2 No Tk Tb Bl) as (ly & Bly & Run).
  exists ly. split; [exact Bly|]. intros X HX.
  assert (G : exists Y, Forall2 (fun x y => fc_infer l (T1 x) = Ok (T1 y)) X Y /\
    Forall2 (row_step p n po (length W) (fc_real n (p_s p) sk zk W bv po) (fun e => (K * e + p_s po * (1#2) + p_s p * sk * (1 + (1 # 2 ^ 19)))%Q)) X Y).
  { clear Run. induction HX as [|x X Cx _ (Y & A & B)]; [exists []; split; constructor|].
    destruct (Row x Cx) as (l' & y & Bl' & I0 & St). rewrite Bl in Bl'. injection Bl' as <-. exists (y :: Y). split; constructor; assumption. }
  destruct G as (Y & A & B). exists Y. split; [now apply Run|exact B].
Qed.
(** Table operators. *)
Lemma step_lut p n op i ir off T f L D po kd :
    is_type op kd -> kd = KTanhLUT \/ kd = KSigmoidLUT -> fb_in (jo_body op) = i :: ir ->
    fn_lut i = Some (mklutj (Some T) None (Some off)) -> (0 <= L)%Q ->
    (forall q, in_dtype (p_d p) q -> 0 <= q + off < Z.of_nat (length T) /\ in_dtype (p_d po) (nth (Z.to_nat (q + off)) T 0) /\
       forall a e, (Qabs (value p q - a) <= e -> Qabs (value po (nth (Z.to_nat (q + off)) T 0%Z) - f a) <= L * e + D)%Q) ->
  exists ly, build_layer fe_builders op = Ok ly /\
    forall X, concat X <> [] -> Forall (codes p n) X -> exists Y, ly (GI X) = Ok (GI Y) /\
      Forall2 (row_step p n po n (map f) (fun e => (L * e + D)%Q)) X Y.
Proof.
  intros Ty Kd Ei El L0 HT. unfold build_layer. rewrite Ty. cbn [rbind].
  assert (Bk : b_tflite fe_builders kd (jo_body op) = fe_lut (jo_body op)) by (destruct Kd as [-> | ->]; reflexivity).
  rewrite Bk. unfold fe_lut. rewrite Ei. change (py_index (i :: ir) 0) with (Ok i). cbn [rbind]. rewrite El. cbn [lut_from_node lj_reduced lj_table lj_offset rbind].
  eexists. split; [reflexivity|]. intros X NE HX. cbn beta iota. cbn [la_table la_offset lookup].
  set (g := fun q => nth (Z.to_nat (q + off)) T 0).
  assert (Row : forall x, codes p n x -> mapM (fun q => py_index T (q + off)) x = Ok (map g x)).
  { intros x (_ & Cx). apply mapM_ok_map. intros q Hq. rewrite Forall_forall in Cx. destruct (HT q (Cx q Hq)) as (B & _ & _).
    apply py_index_in_range; [lia|]. apply nth_error_nth'. lia. }
  exists (map (map g) X). split.
  - destruct (concat X) eqn:EC; [contradiction|]. rewrite (mapM_ok_map _ (map g)); [reflexivity|].
    intros x Hx. apply Row. rewrite Forall_forall in HX. now apply HX.
  - clear NE. induction HX as [|x X Cx _ IH]; constructor; [|exact IH]. destruct Cx as (Lx & Cx). split.
    + split; [rewrite map_length; exact Lx|]. apply Forall_map. eapply Forall_impl; [|exact Cx]. intros q Hq. now destruct (HT q Hq) as (_ & B & _).
    + intros v e _ (Lv & Kn). split; [rewrite !map_length; exact Lv|]. intros j Hj. rewrite map_length in Hj.
      rewrite (nth_indep (map g x) 0 (g 0)) by (rewrite map_length; exact Hj). rewrite map_nth.
      rewrite (nth_indep (map f v) 0%Q (f 0%Q)) by (rewrite map_length, Lv; exact Hj). rewrite map_nth.
      rewrite Forall_forall in Cx. destruct (HT (nth j x 0) (Cx _ (nth_In _ _ Hj))) as (_ & _ & B). apply B. now apply Kn.
Qed.

Lemma rows_concat p n X : (0 < n)%nat -> X <> [] -> Forall (codes p n) X -> concat X <> [].
Proof.
  intros N0 NE H. destruct X as [|x X]; [contradiction|]. inversion H as [|? ? (L & _) _]; subst. destruct x; [cbn in N0; lia|discriminate].
Qed.
Lemma sum_abs_nonneg (l : list nat) f : (0 <= fold_right Qplus 0 (map (fun i => Qabs (f i)) l))%Q.
Proof. induction l as [|i l IH]; cbn [map fold_right]; [discriminate|]. pose proof (Qabs_nonneg (f i)). lra. Qed.
Lemma F2_codes p n po no F E X Y : Forall2 (row_step p n po no F E) X Y -> Forall (codes po no) Y.
Proof. induction 1 as [|x y X Y (H & _) _ IH]; constructor; assumption. Qed.
Lemma F2_nonempty {A B} (R : A -> B -> Prop) X Y : Forall2 R X Y -> X <> [] -> Y <> [].
Proof. intros H N. destruct H; [contradiction|discriminate]. Qed.
Lemma means_run p n ops p' n' F B : means p n ops p' n' F B -> (0 < n)%nat ->
  (0 < n')%nat /\ exists ls, mapM (build_layer fe_builders) ops = Ok ls /\
    forall X inter, X <> [] -> Forall (codes p n) X -> exists Y, snd (run_layers ls (GI X) inter) = Ok (GI Y) /\
      Forall2 (row_step p n p' n' F B) X Y.
Proof.
  induction 1 as [p n|p n op i k b o W bv sk zk po K ops p' n' F B Ty Ei Eo S1 Z1 S2 Z2 No Tk Tb LW Lb L0 P1 P2 P3 R M1 M2 Gd Gz Acc HK Hm IH
    |p n op i ir off T f L D po ops p' n' F B kd Ty Kd Ei El L0 D0 HT Hm IH]; intros N0.
  - split; [exact N0|]. exists []. split; [reflexivity|]. intros X inter NE HX. exists X. split; [reflexivity|].
    clear NE. induction HX as [|x X Cx _ IH]; constructor; [|exact IH]. split; [exact Cx|]. intros v e _ Kn. exact Kn.
  - destruct (IH L0) as (N' & ls & Bls & Run). split; [exact N'|].
    destruct (step_fc p n op i k b o W bv sk zk po K Ty Ei Eo S1 Z1 S2 Z2 No Tk Tb LW Lb L0 P1 P2 P3 R M1 M2 Gd Gz Acc HK) as (ly & Bly & Rly).
    exists (ly :: ls). split; [cbn [mapM]; rewrite Bly; cbn [rbind]; rewrite Bls; reflexivity|].
    intros X inter NE HX. destruct (Rly X HX) as (Y & EY & FY). cbn [run_layers]. rewrite EY.
    destruct (Run Y (inter ++ [GI Y]) (F2_nonempty _ _ _ FY NE) (F2_codes _ _ _ _ _ _ _ _ FY)) as (Z0 & EZ & FZ).
    exists Z0. split; [exact EZ|]. clear - FY FZ HK L0 P1 P2 P3. revert Z0 FZ.
    induction FY as [|x y X Y (C & St) _ IH]; intros Z0 FZ; inversion FZ as [|? z ? Z1 (C' & St') FZ']; subst; constructor; [|now apply IH].
    split; [exact C'|]. intros v e e0 Kn. apply St'; [|now apply St].
    assert (K0 : (0 <= K)%Q) by (eapply Qle_trans; [|apply (HK 0%nat L0)]; apply sum_abs_nonneg).
    assert (X1 : (0 <= K * e)%Q) by (apply Qmult_le_0_compat; assumption). assert (X2 : (0 <= p_s p * sk)%Q) by (apply Qmult_le_0_compat; lra).
    assert (X3 : (0 <= p_s p * sk * (1 + (1 # 2 ^ 19)))%Q) by (apply Qmult_le_0_compat; [exact X2|discriminate]). lra.
  - destruct (IH N0) as (N' & ls & Bls & Run). split; [exact N'|].
    destruct (step_lut p n op i ir off T f L D po kd Ty Kd Ei El L0 HT) as (ly & Bly & Rly).
    exists (ly :: ls). split; [cbn [mapM]; rewrite Bly; cbn [rbind]; rewrite Bls; reflexivity|].
    intros X inter NE HX. destruct (Rly X (rows_concat p n X N0 NE HX) HX) as (Y & EY & FY). cbn [run_layers]. rewrite EY.
    destruct (Run Y (inter ++ [GI Y]) (F2_nonempty _ _ _ FY NE) (F2_codes _ _ _ _ _ _ _ _ FY)) as (Z0 & EZ & FZ).
    exists Z0. split; [exact EZ|]. clear - FY FZ L0 D0. revert Z0 FZ.
    induction FY as [|x y X Y (C & St) _ IH]; intros Z0 FZ; inversion FZ as [|? z ? Z1 (C' & St') FZ']; subst; constructor; [|now apply IH].
    split; [exact C'|]. intros v e e0 Kn. apply St'; [|now apply St]. assert (X1 : (0 <= L * e)%Q) by (apply Qmult_le_0_compat; assumption). lra.
Qed.
Lemma mapM_app {A B} (f : A -> res B) l1 l2 r1 r2 : mapM f l1 = Ok r1 -> mapM f l2 = Ok r2 -> mapM f (l1 ++ l2) = Ok (r1 ++ r2).
Proof.
  revert r1. induction l1 as [|a l1 IH]; intros r1 H1 H2; cbn [mapM app] in *; [injection H1 as <-; exact H2|].
  destruct (f a) as [b|]; cbn [rbind] in *; [|discriminate]. destruct (mapM f l1) as [t|]; cbn [rbind] in *; [|discriminate].
  injection H1 as <-. rewrite (IH t eq_refl H2). reflexivity.
Qed.
Lemma run_snd {V} (l : list (layer V)) x i j : snd (run_layers l x i) = snd (run_layers l x j).
Proof. revert x i j. induction l as [|a l IH]; intros x i j; cbn [run_layers]; [reflexivity|]. destruct (a x); [apply IH|reflexivity]. Qed.
Lemma run_app {V} (l1 l2 : list (layer V)) x y i : snd (run_layers l1 x i) = Ok y -> snd (run_layers (l1 ++ l2) x i) = snd (run_layers l2 y []).
Proof.
  revert x i. induction l1 as [|a l1 IH]; intros x i H; cbn [run_layers app] in *.
  - cbn in H. injection H as ->. apply run_snd.
  - destruct (a x); [now apply IH|discriminate].
Qed.
(** running a file, whatever the operators between QUANTIZE and DEQUANTIZE are known to do *)
Lemma file_error : forall j q0 o0 os ops dq i1 is_ p k n p' k' n' F B X,
  upper (jt_engine j) = chars_of "TFLITE" -> jt_graph j = q0 :: ops ++ [dq] ->
  (exists i o, hd_error (jt_input j) = Some (Some i) /\ hd_error (jt_output j) = Some (Some o)) ->
  contains (chars_of "QUANT") (upper (jo_name q0)) = true ->
  is_type q0 KQuantize -> fb_out (jo_body q0) = o0 :: os -> node_is o0 p -> usable p k ->
  ((0 < n')%nat /\ exists ls, mapM (build_layer fe_builders) ops = Ok ls /\
    forall X inter, X <> [] -> Forall (codes p n) X -> exists Y, snd (run_layers ls (GI X) inter) = Ok (GI Y) /\
      Forall2 (row_step p n p' n' F B) X Y) ->
  is_type dq KDequantize -> fb_in (jo_body dq) = i1 :: is_ -> node_is i1 p' -> usable p' k' ->
  (0 < n)%nat -> X <> [] -> (forall x, In x X -> length x = n) ->
  exists Y, fe_execute j (map (map Fin) X) = Ok (GF Y) /\
  Forall2 (fun x y => length y = n' /\ forall t, (t < n')%nat -> exists r, nth t y NaN = Fin r /\
    (Qabs (r - nth t (F (map (clip p) x)) 0) <= B (p_s p * ((1#2) + two_to (k - 49))) + p_s p' * two_to (k' - 52))%Q) X Y.
Proof.
  intros j q0 o0 os ops dq i1 is_ p k n p' k' n' F B X En Gr (i & o & Hi & Ho) Nm T0 O0 (S0 & Z0 & D0) Up Me T1 I1 (S1 & Z1 & D1) Up' N0 NE LX.
  destruct Me as (N' & ls & Bls & Run).
  destruct Up as (U1 & U2 & U3 & U4 & U5 & U6). destruct Up' as (V1 & V2 & V3 & V4 & V5 & V6).
  pose (qf := quantf1 (p_d p) (p_z p) (Fin (p_s p))).
  set (C := map (map (fun x => qf (Fin x))) X).
  assert (CC : Forall (codes p n) C).
  { apply Forall_map, Forall_forall. intros x Hx. split; [rewrite map_length; now apply LX|]. apply Forall_map, Forall_forall. intros v _.
    apply (quantf1_range (p_d p) (p_z p) (p_s p) (Fin v) U1 (cw_zp _ _ _ U3) U5). discriminate. }
  assert (CN : C <> []) by (unfold C; destruct X; [contradiction|discriminate]).
  destruct (Run C ([] ++ [GI C]) CN CC) as (Yc & EY & FY).
  exists (map (map (dequantf1 (p_z p') (Fin (p_s p')))) Yc). split.
  - unfold fe_execute, seq_init.
    assert (Hi' : py_index (jt_input j) 0 = Ok (Some i)) by (destruct (jt_input j) as [|a r]; [discriminate|]; injection Hi as ->; reflexivity).
    assert (Ho' : py_index (jt_output j) 0 = Ok (Some o)) by (destruct (jt_output j) as [|a r]; [discriminate|]; injection Ho as ->; reflexivity).
    rewrite Hi', Ho'. cbn [rbind]. rewrite Gr. change (py_index (q0 :: ops ++ [dq]) 0) with (Ok q0). cbn [rbind].
    unfold get_engine. rewrite En. change (chars_eqb (chars_of "TFLITE") (chars_of "TFLITE")) with true. cbn [rbind].
    assert (B0 : exists l0, build_layer fe_builders q0 = Ok l0 /\ l0 (GF (map (map Fin) X)) = Ok (GI C)).
    { unfold build_layer. rewrite T0. cbn [rbind fe_builders b_tflite]. unfold fe_quantize. rewrite O0. change (py_index (o0 :: os) 0) with (Ok o0).
      cbn [rbind]. rewrite D0. cbn [rbind]. eexists. split; [reflexivity|]. cbn beta iota. rewrite S0, Z0. unfold C, qf. rewrite map_map. do 2 f_equal.
      apply map_ext. intros x. now rewrite map_map. }
    assert (Bd : exists l1, build_layer fe_builders dq = Ok l1 /\ l1 (GI Yc) = Ok (GF (map (map (dequantf1 (p_z p') (Fin (p_s p')))) Yc))).
    { unfold build_layer. rewrite T1. cbn [rbind fe_builders b_tflite]. unfold fe_dequantize. rewrite I1. change (py_index (i1 :: is_) 0) with (Ok i1).
      cbn [rbind]. rewrite D1. cbn [rbind]. eexists. split; [reflexivity|]. cbn beta iota. rewrite S1, Z1. reflexivity. }
    destruct B0 as (l0 & B0 & R0). destruct Bd as (l1 & B1 & R1).
    assert (Bm : mapM (build_layer fe_builders) (q0 :: ops ++ [dq]) = Ok (l0 :: ls ++ [l1])).
    { cbn [mapM]. rewrite B0. cbn [rbind]. rewrite (mapM_app _ ops [dq] ls [l1] Bls); [reflexivity|]. cbn [mapM]. rewrite B1. reflexivity. }
    rewrite Bm. cbn [rbind]. unfold seq_infer. cbn [sn_quant sn_layers]. rewrite Nm.
    destruct (run_layers (l0 :: ls ++ [l1]) (GF (map (map Fin) X)) []) as [it r] eqn:E. cbn [snd].
    apply (f_equal snd) in E. cbn [snd] in E. rewrite <- E. cbn [run_layers]. rewrite R0.
    rewrite (run_app ls [l1] (GI C) (GI Yc) _ EY). cbn [run_layers]. rewrite R1. reflexivity.
  - clear EY NE CN Run. unfold C in FY. clear C CC. revert Yc FY LX. induction X as [|x X IH]; intros Yc FY LX; inversion FY as [|? y ? Y' (Cy & St) FY' E1 E2]; subst.
    { constructor. }
    cbn [map]. constructor; [|apply IH; [exact FY'|intros z Hz; apply LX; now right]].
    destruct Cy as (Ly & Cy). split; [rewrite map_length; exact Ly|]. intros t Ht.
    assert (e0 : (0 <= p_s p * ((1#2) + two_to (k - 49)))%Q).
    { apply Qmult_le_0_compat; [lra|]. pose proof (pow2_pos (k - 49)) as P. change (two_to (k - 49)) with (pow2 (k - 49)). lra. }
    assert (Kn : known p (map (fun x => qf (Fin x)) x) (map (clip p) x) (p_s p * ((1#2) + two_to (k - 49)))).
    { split; [now rewrite !map_length|]. intros a Ha. rewrite map_length in Ha.
      rewrite (nth_indep (map (fun x => qf (Fin x)) x) 0 (qf (Fin 0))) by (rewrite map_length; exact Ha). rewrite (map_nth (fun x => qf (Fin x)) x 0%Q).
      rewrite (nth_indep (map (clip p) x) 0%Q (clip p 0%Q)) by (rewrite map_length; exact Ha). rewrite map_nth.
      set (v := nth a x 0%Q). destruct U1 as (U1 & U1' & U1''). rewrite <- (clip_scaled p v U5 U1'). unfold value. rewrite inject_Z_minus.
      setoid_replace (p_s p * (inject_Z (qf (Fin v)) - inject_Z (p_z p)) - p_s p * (clampQ (gmin (p_d p)) (gmax (p_d p)) (inject_Z (p_z p) + v / p_s p) - inject_Z (p_z p)))%Q
        with (p_s p * (inject_Z (qf (Fin v)) - clampQ (gmin (p_d p)) (gmax (p_d p)) (inject_Z (p_z p) + v / p_s p)))%Q by ring.
      rewrite Qabs_Qmult, (Qabs_pos (p_s p)) by lra. rewrite !(Qmult_comm (p_s p)). apply Qmult_le_compat_r; [|lra].
      apply quant_err; [split; [exact U1|split; assumption]|exact U3|exact U5|exact U1']. }
    destruct (St _ _ e0 Kn) as (Lv & Kv). rewrite Ly in Kv. specialize (Kv t Ht).
    rewrite (nth_indep (map (dequantf1 (p_z p') (Fin (p_s p'))) y) NaN (dequantf1 (p_z p') (Fin (p_s p')) 0)) by (rewrite map_length, Ly; exact Ht).
    rewrite map_nth. set (c := nth t y 0) in *.
    assert (Hc : in_dtype (p_d p') c) by (rewrite Forall_forall in Cy; apply Cy, nth_In; rewrite Ly; exact Ht).
    rewrite (dequantf1_fin (p_d p') (p_z p') (p_s p') c k' V1 V2 (cw_bound _ _ _ V3) Hc V5 V6). eexists. split; [reflexivity|].
    pose proof (dequantf1_rel (p_z p') (p_s p') c (double_rep _ V4)) as Rel.
    set (ex := (inject_Z (c - p_z p') * p_s p')%Q) in *. set (Fv := nth t (F (map (clip p) x)) 0%Q) in *. set (be := B _) in *.
    assert (Ev : (value p' c == ex)%Q) by (unfold value, ex; ring).
    assert (Bx : (Qabs ex * pow2 (-53) <= p_s p' * two_to (k' - 52))%Q).
    { unfold ex. rewrite Qabs_Qmult, (Qabs_pos (p_s p')) by lra. destruct V3 as (K' & G1 & G2 & G3). unfold in_dtype in Hc.
      assert (A : (Qabs (inject_Z (c - p_z p')) <= pow2 (k' + 1))%Q).
      { apply abs_inject; [lia|]. rewrite Z.pow_add_r by lia. change (2 ^ 1) with 2. lia. }
      change (two_to (k' - 52)) with (pow2 (k' - 52)). replace (k' - 52) with (k' + 1 + -53) by lia. rewrite pow2_plus.
      setoid_replace (p_s p' * (pow2 (k' + 1) * pow2 (-53)))%Q with (pow2 (k' + 1) * p_s p' * pow2 (-53))%Q by ring.
      apply Qmult_le_compat_r; [|apply Qlt_le_weak, pow2_pos]. apply Qmult_le_compat_r; [exact A|lra]. }
    rewrite Ev in Kv. apply Qabs_Qle_condition in Kv. apply Qabs_Qle_condition in Rel. apply Qabs_Qle_condition. split; lra.
Qed.
(** ** C75 *)
(** A file QUANTIZE, operators, DEQUANTIZE run in binary64: every output is within the accumulated error of the real network applied to the
    (saturated) input. [k] and [k'] bound the codes: 7 for int8, 15 for int16. *)
Theorem C75_network_error : forall j q0 o0 os ops dq i1 is_ p k n p' k' n' F B X,
  upper (jt_engine j) = chars_of "TFLITE" -> jt_graph j = q0 :: ops ++ [dq] ->
  (exists i o, hd_error (jt_input j) = Some (Some i) /\ hd_error (jt_output j) = Some (Some o)) ->
  contains (chars_of "QUANT") (upper (jo_name q0)) = true ->
  is_type q0 KQuantize -> fb_out (jo_body q0) = o0 :: os -> node_is o0 p -> usable p k ->
  means p n ops p' n' F B ->
  is_type dq KDequantize -> fb_in (jo_body dq) = i1 :: is_ -> node_is i1 p' -> usable p' k' ->
  (0 < n)%nat -> X <> [] -> (forall x, In x X -> length x = n) ->
  exists Y, fe_execute j (map (map Fin) X) = Ok (GF Y) /\
  Forall2 (fun x y => length y = n' /\ forall t, (t < n')%nat -> exists r, nth t y NaN = Fin r /\
    (Qabs (r - nth t (F (map (clip p) x)) 0) <= B (p_s p * ((1#2) + two_to (k - 49))) + p_s p' * two_to (k' - 52))%Q) X Y.
Proof.
  intros j q0 o0 os ops dq i1 is_ p k n p' k' n' F B X En Gr Io Nm T0 O0 N1 Up Me T1 I1 N2 Up' N0 NE LX.
  exact (file_error j q0 o0 os ops dq i1 is_ p k n p' k' n' F B X En Gr Io Nm T0 O0 N1 Up (means_run p n ops p' n' F B Me N0) T1 I1 N2 Up' N0 NE LX).
Qed.
(** ** Tables computed in doubles meet the table condition *)
(** the double-valued activation [g] is within [eta] of the real function [f], which is [L]-Lipschitz *)
Definition computes (g : f64 -> f64) (f : Q -> Q) (eta : Q) : Prop := forall x, exists y, g (Fin x) = Fin y /\ (Qabs (y - f x) <= eta)%Q.
Definition lipschitz1 (f : Q -> Q) (L : Q) : Prop := forall a b, (Qabs (f a - f b) <= L * Qabs (a - b))%Q.
Definition table_for (p po : params) (T : list Z) (f : Q -> Q) (L D : Q) : Prop :=
  forall q, in_dtype (p_d p) q -> 0 <= q + - gmin (p_d p) < Z.of_nat (length T) /\ in_dtype (p_d po) (nth (Z.to_nat (q + - gmin (p_d p))) T 0) /\
    forall a e, (Qabs (value p q - a) <= e -> Qabs (value po (nth (Z.to_nat (q + - gmin (p_d p))) T 0%Z) - f a) <= L * e + D)%Q.
Lemma deq_value p k q : usable p k -> in_dtype (p_d p) q -> exists x, dequantf1 (p_z p) (Fin (p_s p)) q = Fin x /\ (Qabs (x - value p q) <= p_s p * two_to (k - 52))%Q.
Proof.
  intros (V1 & V2 & V3 & V4 & V5 & V6) Hc. rewrite (dequantf1_fin (p_d p) (p_z p) (p_s p) q k V1 V2 (cw_bound _ _ _ V3) Hc V5 V6).
  eexists. split; [reflexivity|]. pose proof (dequantf1_rel (p_z p) (p_s p) q (double_rep _ V4)) as Rel.
  assert (Ev : (value p q == inject_Z (q - p_z p) * p_s p)%Q) by (unfold value; ring). rewrite Ev. eapply Qle_trans; [exact Rel|].
  rewrite Qabs_Qmult, (Qabs_pos (p_s p)) by lra. destruct V3 as (K' & G1 & G2 & G3). unfold in_dtype in Hc.
  assert (A : (Qabs (inject_Z (q - p_z p)) <= pow2 (k + 1))%Q).
  { apply abs_inject; [lia|]. rewrite Z.pow_add_r by lia. change (2 ^ 1) with 2. lia. }
  change (two_to (k - 52)) with (pow2 (k - 52)). replace (k - 52) with (k + 1 + -53) by lia. rewrite pow2_plus.
  setoid_replace (p_s p * (pow2 (k + 1) * pow2 (-53)))%Q with (pow2 (k + 1) * p_s p * pow2 (-53))%Q by ring.
  apply Qmult_le_compat_r; [|apply Qlt_le_weak, pow2_pos]. apply Qmult_le_compat_r; [exact A|lra].
Qed.
Lemma quant_value p k y : usable p k -> (Qabs (value p (quantf1 (p_d p) (p_z p) (Fin (p_s p)) (Fin y)) - clip p y) <= p_s p * ((1#2) + two_to (k - 49)))%Q.
Proof.
  intros (V1 & V2 & V3 & V4 & V5 & V6). pose proof V1 as (_ & G & _). rewrite <- (clip_scaled p y V5 G). unfold value. rewrite inject_Z_minus.
  set (c := quantf1 _ _ _ _). set (cl := clampQ _ _ _).
  setoid_replace (p_s p * (inject_Z c - inject_Z (p_z p)) - p_s p * (cl - inject_Z (p_z p)))%Q with (p_s p * (inject_Z c - cl))%Q by ring.
  rewrite Qabs_Qmult, (Qabs_pos (p_s p)) by lra. rewrite !(Qmult_comm (p_s p)). apply Qmult_le_compat_r; [|lra]. now apply quant_err.
Qed.
(** The entry for a code, in real terms: [extra] is how far the stored code may be from the default rounding. *)
Lemma entry_value p k po k' g f eta L q c x y extra : usable p k -> usable po k' -> lipschitz1 f L -> (0 <= L)%Q -> (0 <= extra)%Q ->
  in_dtype (p_d p) q -> dequantf1 (p_z p) (Fin (p_s p)) q = Fin x -> g (Fin x) = Fin y -> (Qabs (y - f x) <= eta)%Q ->
  (Qabs (inject_Z (c - quantf1 (p_d po) (p_z po) (Fin (p_s po)) (Fin y))) <= extra)%Q ->
  forall a e, (Qabs (value p q - a) <= e)%Q ->
   (Qabs (value po c - clip po (f a)) <= L * e + (L * (p_s p * two_to (k - 52)) + eta + p_s po * ((1#2) + two_to (k' - 49) + extra)))%Q.
Proof.
  intros U U' Li L0 X0 Hq Dx Gy Ef Hc a e Ha. destruct (deq_value p k q U Hq) as (x' & Dx' & Ex). rewrite Dx in Dx'. injection Dx' as <-.
  pose proof (quant_value po k' y U') as Qv. destruct U' as (_ & _ & _ & _ & S0 & _).
  set (cy := quantf1 (p_d po) (p_z po) (Fin (p_s po)) (Fin y)) in *.
  assert (Vc : (Qabs (value po c - value po cy) <= p_s po * extra)%Q).
  { unfold value. setoid_replace (p_s po * inject_Z (c - p_z po) - p_s po * inject_Z (cy - p_z po))%Q with (p_s po * inject_Z (c - cy))%Q by (rewrite !inject_Z_minus; ring).
    rewrite Qabs_Qmult, (Qabs_pos (p_s po)) by lra. rewrite !(Qmult_comm (p_s po)). apply Qmult_le_compat_r; [exact Hc|lra]. }
  assert (Lx : (Qabs (f x - f a) <= L * (p_s p * two_to (k - 52) + e))%Q).
  { eapply Qle_trans; [apply Li|]. rewrite !(Qmult_comm L). apply Qmult_le_compat_r; [|exact L0].
    setoid_replace (x - a)%Q with ((x - value p q) + (value p q - a))%Q by ring. eapply Qle_trans; [apply Qabs_triangle|]. now apply Qplus_le_compat. }
  assert (Ly : (Qabs (y - f a) <= eta + L * (p_s p * two_to (k - 52) + e))%Q).
  { setoid_replace (y - f a)%Q with ((y - f x) + (f x - f a))%Q by ring. eapply Qle_trans; [apply Qabs_triangle|]. now apply Qplus_le_compat. }
  apply (clip_nonexp po) in Ly.
  setoid_replace (L * (p_s p * two_to (k - 52) + e))%Q with (L * (p_s p * two_to (k - 52)) + L * e)%Q in Ly by ring.
  setoid_replace (p_s po * ((1 # 2) + two_to (k' - 49) + extra))%Q with (p_s po * ((1 # 2) + two_to (k' - 49)) + p_s po * extra)%Q by ring.
  apply Qabs_Qle_condition in Qv, Vc, Ly. apply Qabs_Qle_condition. split; lra.
Qed.
(** Tables with default rounding (create_LUT). *)
Theorem C75_default_table : forall p k po k' g f eta L, usable p k -> usable po k' -> p_d po = p_d p -> computes g f eta -> lipschitz1 f L -> (0 <= L)%Q ->
  table_for p po (create_LUT_f (p_d p) g (Fin (p_s p)) (p_z p) (Fin (p_s po)) (p_z po) None) (fun a => clip po (f a)) L
    (L * (p_s p * two_to (k - 52)) + eta + p_s po * ((1#2) + two_to (k' - 49) + 0)).
Proof.
  intros p k po k' g f eta L U U' Ed Cg Li L0 q Hq. pose proof U as (U1 & _). pose proof U1 as (_ & G & _).
  destruct (C69_table (p_d p) g (Fin (p_s p)) (p_z p) (Fin (p_s po)) (p_z po) q G Hq) as (Len & Nth).
  set (T := create_LUT_f _ _ _ _ _ _ _) in *. replace (q + - gmin (p_d p)) with (q - gmin (p_d p)) by ring.
  rewrite (nth_error_nth T (Z.to_nat (q - gmin (p_d p))) 0 Nth). unfold in_dtype in Hq.
  split; [lia|]. rewrite quantize_f_none. cbn [scalar nd_get dequantize_f nd_map].
  destruct (deq_value p k q U Hq) as (x & Dx & _). rewrite Dx. destruct (Cg x) as (y & Gy & Ey). rewrite Gy. rewrite <- Ed. split.
  - destruct U' as (A1 & _ & A3 & _ & A5 & _). apply (quantf1_range (p_d po) (p_z po) (p_s po) (Fin y) A1 (cw_zp _ _ _ A3) A5). discriminate.
  - intros a e Ha. apply (entry_value p k po k' g f eta L q _ x y 0 U U' Li L0 ltac:(lra) Hq Dx Gy Ey); [|exact Ha].
    rewrite Z.sub_diag. discriminate.
Qed.
Lemma Ok_inv {A} (x y : A) : Ok x = Ok y -> x = y.
Proof. congruence. Qed.
(** Tables of the quantizer's activation nodes (get_base_rounding policy): one more step of error. *)
Theorem C75_node_table : forall p k po k' g f eta L, usable p k -> usable po k' -> p_d po = p_d p -> computes g f eta -> lipschitz1 f L -> (0 <= L)%Q ->
  table_for p po (node_lut_f (p_d p) g (Fin (p_s p)) (p_z p) (Fin (p_s po)) (p_z po)) (fun a => clip po (f a)) L
    (L * (p_s p * two_to (k - 52)) + eta + p_s po * ((1#2) + two_to (k' - 49) + 1)).
Proof.
  intros p k po k' g f eta L U U' Ed Cg Li L0 q Hq. pose proof U' as (A1 & _ & A3 & _ & A5 & _).
  destruct (deq_value p k q U Hq) as (x & Dx & _). destruct (Cg x) as (y & Gy & Ey).
  assert (N : ~ (p_s po == 0)%Q) by lra. rewrite Ed in A1, A3.
  destruct (C69_node_lookup (p_d p) g (Fin (p_s p)) (p_z p) (p_s po) (p_z po) k' q y A1 A3 N Hq) as (c & Lk & Cl & _).
  { unfold dequantize_f. cbn [scalar nd_map nd_get]. rewrite Dx. exact Gy. }
  cbv zeta in Cl. rewrite quantize_f_none in Cl. cbn [scalar nd_get] in Cl.
  unfold in_dtype in Hq. pose (pol := get_base_rounding_f (nd_of_list NaN (float_activation_f (p_d p) g (Fin (p_s p)) (p_z p))) (Fin (p_s po))).
  assert (PS : nd_shape pol = [slots (p_d p)]) by (unfold pol, get_base_rounding_f; cbn; now rewrite float_activation_f_length).
  assert (K : (Z.to_nat (q - gmin (p_d p)) < slots (p_d p))%nat) by (unfold slots; lia).
  pose proof (create_LUT_f_nth (p_d p) g (Fin (p_s p)) (p_z p) (Fin (p_s po)) (p_z po) (Some pol) _ K PS) as Nt. cbv zeta in Nt.
  pose proof (create_LUT_f_length (p_d p) g (Fin (p_s p)) (p_z p) (Fin (p_s po)) (p_z po) (Some pol) PS) as Ln.
  change (create_LUT_f (p_d p) g (Fin (p_s p)) (p_z p) (Fin (p_s po)) (p_z po) (Some pol)) with (node_lut_f (p_d p) g (Fin (p_s p)) (p_z p) (Fin (p_s po)) (p_z po)) in Nt, Ln.
  set (T := node_lut_f _ _ _ _ _ _) in *. unfold node_lut_f_call in Lk.
  replace (gmin (p_d p) + Z.of_nat (Z.to_nat (q - gmin (p_d p)))) with q in Nt by lia. rewrite Dx, Gy in Nt.
  rewrite (py_index_in_range T (q + - gmin (p_d p)) _ ltac:(lia) Nt) in Lk. apply Ok_inv in Lk. rename Lk into Ec.
  rewrite (nth_error_nth T (Z.to_nat (q + - gmin (p_d p))) 0 Nt). rewrite Ec. split; [rewrite Ln; unfold slots in *; lia|]. split.
  - rewrite <- Ec. assert (Bc : exists w, nd_get pol [Z.to_nat (q - gmin (p_d p))] = Fin w /\ (0 <= w <= 1)%Q).
    { unfold pol, get_base_rounding_f. cbn [nd_map nd_get].
      match goal with |- exists w, base_roundingf1 ?a ?b = _ /\ _ => destruct (base_cases a b) as [-> | ->] end; [exists 0%Q|exists 1%Q]; split; try reflexivity; lra. }
    destruct Bc as (w & -> & W01). rewrite Ed. rewrite (quantf1p_real (p_d p) (p_z po) (p_s po) y w A1 (cw_zp _ _ _ A3) N W01).
    apply clipZ_range. apply A1.
  - intros a e Ha. apply (entry_value p k po k' g f eta L q c x y 1 U U' Li L0 ltac:(lra) Hq Dx Gy Ey); [|exact Ha]. rewrite Ed.
    destruct Cl as (Cl1 & Cl2). apply Zle_inj in Cl1, Cl2. apply Qabs_Qle_condition. split; [exact Cl1|exact Cl2].
Qed.

(** ** A concrete network: 2 inputs, FULLY_CONNECTED to 2, a clamp-below-zero table built in doubles, FULLY_CONNECTED to 1. Scale 0.1 as a double. *)
Definition ex_s01 : Q := 3602879701896397 # 36028797018963968.
Definition ex_p0 := mkpar ex_s01 3 int8.
Definition ex_p1 := mkpar (1#8) (-5) int8.
Definition ex_p2 := mkpar (1#4) 0 int8.
Definition ex_relu (x : Q) : Q := Qmax 0 x.
Definition ex_g (v : f64) : f64 := match v with Fin x => Fin (ex_relu x) | _ => v end.
Definition ex_T := create_LUT_f int8 ex_g (Fin (1#8)) (-5) (Fin (1#8)) (-5) None.
Definition ex_node (p : params) (l : option lut_json) : fnode := mkfn (Fin (p_s p)) (p_z p) (chars_of "int8") (PVec []) l.
Definition ex_op (t : String.string) (i o : list fnode) : jop fbody := mkjop (chars_of t) (chars_of t) (mkfb i o).
Definition ex_ker (W : list (list Z)) : fnode := mkfn (Fin (1#32)) 0 (chars_of "int8") (PMat W) None.
Definition ex_bias (b : list Z) : fnode := mkfn (Fin (1#320)) 0 (chars_of "int32") (PVec b) None.
Definition ex_ops : list (jop fbody) :=
  [ex_op "FULLY_CONNECTED" [ex_node ex_p0 None; ex_ker [[64; -32]; [16; 100]]; ex_bias [50; -70]] [ex_node ex_p1 None];
   ex_op "TANHLUT" [ex_node ex_p1 (Some (mklutj (Some ex_T) None (Some 128)))] [ex_node ex_p1 None];
   ex_op "FULLY_CONNECTED" [ex_node ex_p1 None; ex_ker [[40; -24]]; ex_bias [9]] [ex_node ex_p2 None]].
Definition ex_net : jnet fbody :=
  mkjnet (chars_of "tflite") (ex_op "QUANTIZE" [] [ex_node ex_p0 None] :: ex_ops ++ [ex_op "DEQUANTIZE" [ex_node ex_p2 None] []])
    [Some (mkjnode None None)] [Some (mkjnode None None)].
Definition ex_F (v : list Q) : list Q :=
  fc_real 2 (1#8) (1#32) 0 [[40; -24]] [9] ex_p2 (map (fun a => clip ex_p1 (ex_relu a)) (fc_real 2 ex_s01 (1#32) 0 [[64; -32]; [16; 100]] [50; -70] ex_p1 v)).
Lemma ex_relu_lip : lipschitz1 ex_relu 1.
Proof.
  intros a b. unfold ex_relu. setoid_replace (1 * Qabs (a - b))%Q with (Qabs (a - b)) by ring.
  assert (H : (Qabs (a - b) <= Qabs (a - b))%Q) by apply Qle_refl. apply Qabs_Qle_condition in H. destruct H as (H1 & H2). apply Qabs_Qle_condition.
  destruct (Q.max_spec 0 a) as [[A1 ->]|[A1 ->]], (Q.max_spec 0 b) as [[B1 ->]|[B1 ->]]; pose proof (Qabs_nonneg (a - b)); split; lra.
Qed.
Lemma ex_u0 : usable ex_p0 7.
Proof.
  split; [split; [|split]; vm_compute; discriminate|]. split; [split; vm_compute; discriminate|].
  split; [split; [lia|split; [|split; [|split]]; vm_compute; discriminate]|].
  split; [exists 3602879701896397, (-55); split; [lia|split; [lia|vm_compute; reflexivity]]|]. split; [reflexivity|vm_compute; discriminate].
Qed.
Lemma ex_u1 : usable ex_p1 7.
Proof.
  split; [split; [|split]; vm_compute; discriminate|]. split; [split; vm_compute; discriminate|].
  split; [split; [lia|split; [|split; [|split]]; vm_compute; discriminate]|].
  split; [exists 1, (-3); split; [lia|split; [lia|vm_compute; reflexivity]]|]. split; [reflexivity|vm_compute; discriminate].
Qed.
Lemma ex_u2 : usable ex_p2 7.
Proof.
  split; [split; [|split]; vm_compute; discriminate|]. split; [split; vm_compute; discriminate|].
  split; [split; [lia|split; [|split; [|split]]; vm_compute; discriminate]|].
  split; [exists 1, (-2); split; [lia|split; [lia|vm_compute; reflexivity]]|]. split; [reflexivity|vm_compute; discriminate].
Qed.
Lemma ex_two p x : codes p 2 x -> p_d p = int8 -> exists a b, x = [a; b] /\ -128 <= a <= 127 /\ -128 <= b <= 127.
Proof.
  intros (L & F) D. destruct x as [|a [|b [|]]]; try discriminate. exists a, b. split; [reflexivity|].
  pose proof (Forall_inv F) as A. pose proof (Forall_inv (Forall_inv_tail F)) as A'. unfold in_dtype in *. rewrite D in *. cbn in *. lia.
Qed.
Definition ex_step (s so K : Q) (e : Q) : Q := (K * e + so * (1#2) + s * (1#32) * (1 + (1 # 2 ^ 19)))%Q.
Lemma ex_fc p W bv po K ops p' n' F B : p_d p = int8 -> p_d po = int8 ->
  (forall w, In w W -> length w = 2%nat) -> length bv = length W -> (0 < length W)%nat ->
  (0 < p_s p)%Q -> (0 < p_s po)%Q -> (two_to (-1022) <= p_s p * (1#32) <= two_to 1022)%Q ->
  ((1000001 # 1000000000000) <= p_s p * (1#32) / p_s po)%Q -> (p_s p * (1#32) / p_s po < inject_Z (2 ^ 30 - 1))%Q -> Z.abs (p_z po) <= 2 ^ 62 ->
  (forall a b j, -128 <= a <= 127 -> -128 <= b <= 127 -> (j < length W)%nat -> Z.abs (exact_acc (p_z p) 0 [a; b] (nth j W []) (nth j bv 0)) <= 2 ^ 31) ->
  (forall j, (j < length W)%nat -> (sumQ_upto 2 (fun i => Qabs ((1#32) * inject_Z (nth i (nth j W []) 0%Z - 0))) <= K)%Q) ->
  means po (length W) ops p' n' F B ->
  means p 2 (ex_op "FULLY_CONNECTED" [ex_node p None; ex_ker W; ex_bias bv] [ex_node po None] :: ops) p' n'
    (fun v => F (fc_real 2 (p_s p) (1#32) 0 W bv po v)) (fun e => B (ex_step (p_s p) (p_s po) K e)).
Proof.
  intros D Do H1 H2 H3 H4 H5 H6 H7 H8 H9 H10 H11 H12. unfold ex_step.
  apply (means_fc p 2 _ (ex_node p None) (ex_ker W) (ex_bias bv) (ex_node po None) W bv (1#32) 0 po K ops p' n' F B);
    try assumption; try exact (eq_refl _).
  - split; [exact (eq_refl _)|]. split; [exact (eq_refl _)|]. rewrite Do. vm_compute. reflexivity.
  - rewrite Do. vm_compute. discriminate.
  - intros x j Hx Hj. destruct (ex_two _ _ Hx D) as (a & b & -> & A & A'). now apply H10.
Qed.
Definition ex_D : Q := (1 * ((1#8) * two_to (7 - 52)) + 0 + (1#8) * ((1#2) + two_to (7 - 49) + 0))%Q.
Lemma ex_table : table_for ex_p1 ex_p1 ex_T (fun a => clip ex_p1 (ex_relu a)) 1 ex_D.
Proof.
  apply (C75_default_table ex_p1 7 ex_p1 7 ex_g ex_relu 0 1 ex_u1 ex_u1 eq_refl); [|exact ex_relu_lip|discriminate].
  intros x. exists (ex_relu x). split; [reflexivity|]. setoid_replace (ex_relu x - ex_relu x)%Q with 0%Q by ring. discriminate.
Qed.
Definition ex_B (e : Q) : Q := ex_step (1#8) (1#4) 2 (1 * ex_step ex_s01 (1#8) (145#40) e + ex_D).
Lemma ex_means : means ex_p0 2 ex_ops ex_p2 1 ex_F ex_B.
Proof.
  apply (ex_fc ex_p0 [[64; -32]; [16; 100]] [50; -70] ex_p1 (145#40) _ ex_p2 1 
    (fun v => fc_real 2 (1#8) (1#32) 0 [[40; -24]] [9] ex_p2 (map (fun a => clip ex_p1 (ex_relu a)) v)) (fun e => ex_step (1#8) (1#4) 2 (1 * e + ex_D))).
  - reflexivity.
  - reflexivity.
  - simpl. intros w [<- | [<- | []]]; reflexivity.
  - reflexivity.
  - simpl; lia.
  - reflexivity.
  - reflexivity.
  - split; vm_compute; discriminate.
  - vm_compute; discriminate.
  - vm_compute; reflexivity.
  - vm_compute; discriminate.
  - intros a b j A A' Hj. simpl in Hj. destruct j as [|[|j]]; [unfold exact_acc; cbn; lia|unfold exact_acc; cbn; lia|exfalso; lia].
  - intros j Hj. simpl in Hj. destruct j as [|[|j]]; [vm_compute; discriminate|vm_compute; discriminate|exfalso; lia].
  - apply (means_lut ex_p1 2 _ (ex_node ex_p1 (Some (mklutj (Some ex_T) None (Some 128)))) [] 128 ex_T (fun a => clip ex_p1 (ex_relu a)) 1 ex_D ex_p1 _ ex_p2 1
      (fc_real 2 (1#8) (1#32) 0 [[40; -24]] [9] ex_p2) (ex_step (1#8) (1#4) 2) KTanhLUT).
    + unfold is_type. vm_compute. reflexivity.
    + now left.
    + exact (eq_refl _).
    + exact (eq_refl _).
    + discriminate.
    + vm_compute; discriminate.
    + exact ex_table.
    + apply (ex_fc ex_p1 [[40; -24]] [9] ex_p2 2 [] ex_p2 1 (fun v => v) (fun e => e)).
      * reflexivity.
      * reflexivity.
      * simpl. intros w [<- | []]; reflexivity.
      * reflexivity.
      * simpl; lia.
      * reflexivity.
      * reflexivity.
      * split; vm_compute; discriminate.
      * vm_compute; discriminate.
      * vm_compute; reflexivity.
      * vm_compute; discriminate.
      * intros a b j A A' Hj. simpl in Hj. destruct j as [|j]; [unfold exact_acc; cbn; lia|exfalso; lia].
      * intros j Hj. simpl in Hj. destruct j as [|j]; [vm_compute; discriminate|exfalso; lia].
      * apply means_nil.
Qed.
Lemma ex_bound : (ex_B (ex_s01 * ((1#2) + two_to (7 - 49))) + (1#4) * two_to (7 - 52) <= 7#8)%Q.
Proof. vm_compute; discriminate. Qed.
(** Its outputs are within 0.875 (3.5 output steps) of the real network's, for every batch. *)
Example C75_example : forall X, X <> [] -> (forall x, In x X -> length x = 2%nat) ->
  exists Y, fe_execute ex_net (map (map Fin) X) = Ok (GF Y) /\
  Forall2 (fun x y => exists r, nth 0 y NaN = Fin r /\ (Qabs (r - nth 0 (ex_F (map (clip ex_p0) x)) 0) <= 7#8)%Q) X Y.
Proof.
  intros X NE LX. pose proof ex_means as Me. pose proof ex_bound as Bd.
  destruct (C75_network_error ex_net (ex_op "QUANTIZE" [] [ex_node ex_p0 None]) (ex_node ex_p0 None) [] ex_ops (ex_op "DEQUANTIZE" [ex_node ex_p2 None] []) (ex_node ex_p2 None) []
    ex_p0 7 2 ex_p2 7 1 ex_F ex_B X) as (Y & E & FY); try exact (eq_refl _); try exact ex_u0; try exact ex_u2; try exact Me; try exact NE; try exact LX.
  - now exists (mkjnode None None), (mkjnode None None).
  - repeat split.
  - repeat split.
  - lia.
  - exists Y. split; [exact E|].
    clear E NE LX. induction FY as [|x y X' Y' (_ & H) _ IH]; [constructor|]. constructor; [|apply IH].
    + destruct (H 0%nat ltac:(lia)) as (r & Er & Br). exists r. split; [exact Er|]. eapply Qle_trans; [exact Br|exact Bd].
Qed.
(** The real network gives 2.73 and -12.34 on this batch. *)
Example C75_example_run : fe_execute ex_net [[Fin (1#2); Fin (-1)]; [Fin 3; Fin 100]] = Ok (GF [[Fin (11#4)]; [Fin (-49#4)]]).
Proof. vm_compute. reflexivity. Qed.
