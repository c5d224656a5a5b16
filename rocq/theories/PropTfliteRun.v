(** Property C72: the JSON file converted from a TFLite model, loaded and run by the inference engine, computes the model. *)
From Verif Require Import Base BaseProofs DtypeModel QuantModel QuantProofs DtypeProofs LutModel LutProofs FcModel FcProofs FcLayer EngineModel EngineProofs
  PipeModel PipeProofs TfliteModel PropCore PropFc PropEngine PropDist PropTflite.
From Coq Require Import Lqa.
Open Scope Z_scope.
Open Scope list_scope.

(** ** Specification: what a TFLite operator computes *)
Definition half_up (x : Q) : Z := Qfloor (x + (1#2)).
(** Tensor [k] holds codes of type [d] with scale [s] and zero point [z]. *)
Definition quantized_as (m : tmodel) (k : Z) (d : gdtype) (s : Q) (z : Z) : Prop :=
  exists t, at_ (tm_tensors m) k t /\ parse_dtype (tt_type t) = Ok d /\ per_tensor t s z.
(** Tensor [k] is a constant of the file with value [v]. *)
Definition constant (it : tinterp) (m : tmodel) (k : Z) (v : ptensor) : Prop :=
  exists t, at_ (tm_tensors m) k t /\ tt_stored t = true /\ td_val (ti_get it k) = v.
Definition is_op (m : tmodel) (op : toper) (ty : chars) (ins : list Z) (o : Z) : Prop :=
  at_ (tm_codes m) (to_code op) ty /\ to_in op = ins /\ to_out op = [o].
(** One row of a fully connected layer: code [j] is within the error of the fixed point multiplier of the exact affine result, saturated. *)
Definition fc_row (si : Q) (zi : Z) (sk : Q) (zk : Z) (W : list (list Z)) (b : list Z) (so : Q) (zo : Z) (d : gdtype) (x y : list Z) : Prop :=
  length y = length W /\
  forall j, (j < length W)%nat ->
    let acc := exact_acc zi zk x (nth j W []) (nth j b 0) in
    let M := (si * sk / so)%Q in
    in_dtype d (nth j y 0) /\
    (Z.abs acc <= 2 ^ 31 ->
     (Qabs (inject_Z (nth j y 0%Z) - clampQ (gmin d) (gmax d) (inject_Z zo + M * inject_Z acc)) <= (1#2) + inject_Z (Z.abs acc) * (M * u31))%Q).
(** The operators, on the value of their first input. *)
Inductive t_step (tanh sigmoid : Q -> Q) (it : tinterp) (m : tmodel) (op : toper) : pval -> pval -> Prop :=
| ts_quantize a o d s z x : is_op m op (str "QUANTIZE") [a] o -> quantized_as m o d s z ->
    t_step tanh sigmoid it m op (VF x) (VI (map (map (fun v => clamp (gmin d) (gmax d) (half_up (v / s + inject_Z z)))) x))
| ts_dequantize a o d s z x : is_op m op (str "DEQUANTIZE") [a] o -> quantized_as m a d s z ->
    t_step tanh sigmoid it m op (VI x) (VF (map (map (fun q => inject_Z (q - z) * s)%Q) x))
| ts_tanh a o si zi so zo x : is_op m op (str "TANH") [a] o -> quantized_as m a int8 si zi -> quantized_as m o int8 so zo ->
    t_step tanh sigmoid it m op (VI x) (VI (map (map (fun q => clamp (-128) 127 (half_up (tanh (inject_Z (q - zi) * si)%Q / so + inject_Z zo)))) x))
| ts_logistic a o si zi so zo x : is_op m op (str "LOGISTIC") [a] o -> quantized_as m a int8 si zi -> quantized_as m o int8 so zo ->
    t_step tanh sigmoid it m op (VI x) (VI (map (map (fun q => clamp (-128) 127 (half_up (sigmoid (inject_Z (q - zi) * si)%Q / so + inject_Z zo)))) x))
| ts_fc a k b o da si zi dk sk zk d so zo W bias x y : is_op m op (str "FULLY_CONNECTED") [a; k; b] o -> to_fused op = str "NONE" ->
    quantized_as m a da si zi -> quantized_as m k dk sk zk -> quantized_as m o d so zo -> constant it m k (PMat W) -> constant it m b (PVec bias) ->
    Forall2 (fc_row si zi sk zk W bias so zo d) x y -> t_step tanh sigmoid it m op (VI x) (VI y)
| ts_relu a o s z x : is_op m op (str "RELU") [a] o -> quantized_as m a int8 s z -> quantized_as m o int8 s z ->
    t_step tanh sigmoid it m op (VI x) (VI (map (map (Z.max z)) x)).
(** The model, in an environment of tensor values: each operator reads its first input and writes its output. *)
Definition env := Z -> option pval.
Definition write (e : env) (k : Z) (v : pval) : env := fun i => if i =? k then Some v else e i.
Inductive t_run (tanh sigmoid : Q -> Q) (it : tinterp) (m : tmodel) : list toper -> env -> env -> Prop :=
| tr_nil e : t_run tanh sigmoid it m [] e e
| tr_cons op ops e e' i ir o v w : to_in op = i :: ir -> to_out op = [o] -> e i = Some v -> t_step tanh sigmoid it m op v w ->
    t_run tanh sigmoid it m ops (write e o w) e' -> t_run tanh sigmoid it m (op :: ops) e e'.

(** ** What the theorem asks of the model *)
(** Each operator reads what the previous one wrote. *)
Fixpoint chained (k : Z) (ops : list toper) (k' : Z) : Prop :=
  match ops with
  | [] => k = k'
  | op :: r => exists ir o, to_in op = k :: ir /\ to_out op = [o] /\ chained o r k'
  end.
(** A batch of [VF] rows of width n, or of codes of type d. *)
Inductive vtype := TFloat (n : nat) | TCode (d : gdtype) (n : nat).
Definition has_type (T : vtype) (v : pval) : Prop :=
  match T, v with
  | TFloat n, VF x => x <> [] /\ Forall (fun r => length r = n) x
  | TCode d n, VI x => x <> [] /\ Forall (fun r => length r = n /\ Forall (in_dtype d) r) x
  | _, _ => False
  end.
(** Operators the engine can run and the shapes and types they take. *)
Inductive runnable (it : tinterp) (m : tmodel) (op : toper) : vtype -> vtype -> Prop :=
| rn_quantize a o d s z n : is_op m op (str "QUANTIZE") [a] o -> quantized_as m o d s z -> narrow d ->
    runnable it m op (TFloat n) (TCode d n)
| rn_dequantize a o d s z n : is_op m op (str "DEQUANTIZE") [a] o -> quantized_as m a d s z -> narrow d -> in_dtype d z ->
    runnable it m op (TCode d n) (TFloat n)
| rn_tanh a o si zi so zo n : is_op m op (str "TANH") [a] o -> quantized_as m a int8 si zi -> quantized_as m o int8 so zo -> in_dtype int8 zi ->
    (0 < n)%nat -> runnable it m op (TCode int8 n) (TCode int8 n)
| rn_logistic a o si zi so zo n : is_op m op (str "LOGISTIC") [a] o -> quantized_as m a int8 si zi -> quantized_as m o int8 so zo -> in_dtype int8 zi ->
    (0 < n)%nat -> runnable it m op (TCode int8 n) (TCode int8 n)
| rn_fc a k b o da si zi dk sk zk d so zo W bias n : is_op m op (str "FULLY_CONNECTED") [a; k; b] o -> to_fused op = str "NONE" ->
    quantized_as m a da si zi -> quantized_as m k dk sk zk -> quantized_as m o d so zo -> constant it m k (PMat W) -> constant it m b (PVec bias) ->
    (forall w, In w W -> length w = n) -> length bias = length W -> narrow d -> in_dtype d zo ->
    (1 # 1000000 <= si * sk / so)%Q -> (si * sk / so < inject_Z (2 ^ 30) * (1 - u32))%Q ->
    runnable it m op (TCode da n) (TCode d (length W))
| rn_relu a o s z n : is_op m op (str "RELU") [a] o -> quantized_as m a int8 s z -> quantized_as m o int8 s z -> in_dtype int8 z ->
    runnable it m op (TCode int8 n) (TCode int8 n).
Inductive all_runnable (it : tinterp) (m : tmodel) : list toper -> vtype -> vtype -> Prop :=
| ar_nil T : all_runnable it m [] T T
| ar_cons op ops T T' T'' : runnable it m op T T' -> all_runnable it m ops T' T'' -> all_runnable it m (op :: ops) T T''.

(** ** Proofs *)
Lemma fetch_all it m ks : describes it m -> Forall (tensor_ok it m) ks -> exists ns, mapM (fetch it m) ks = Ok ns /\ Forall2 (node_of it m) ks ns.
Proof.
  intros D F. assert (X : exists ns, mapM (fetch it m) ks = Ok ns).
  { apply mapM_total. eapply Forall_impl; [|exact F]. intros k. apply fetch_ok. }
  destruct X as (ns & E). exists ns. split; [exact E|]. now apply fetch_list_of.
Qed.
Lemma node_q it m k n d s z : node_of it m k n -> quantized_as m k d s z ->
  parse_dtype (tj_dtype n) = Ok d /\ tj_scale n = Some s /\ tj_zp n = Some z.
Proof.
  intros (t & A & _ & T & _ & _ & _ & _ & P) (t' & A' & Pd & Pt). rewrite (at_fun _ _ _ _ A' A) in *. rewrite T. split; [exact Pd|]. now apply P.
Qed.
Lemma node_c it m k n v : node_of it m k n -> constant it m k v -> tj_tensor n = Some v.
Proof.
  intros (t & A & _ & _ & S0 & _) (t' & A' & St & V). rewrite (at_fun _ _ _ _ A' A) in *. rewrite <- V. now apply S0.
Qed.
Lemma quant_nz m k d s z : quantized_as m k d s z -> Qeq_bool s 0 = false.
Proof. intros (t & _ & _ & q & _ & _ & N & _). destruct (Qeq_bool s 0) eqn:E; [apply Qeq_bool_iff in E; contradiction|reflexivity]. Qed.
Lemma py_hd {A} (a : A) l : py_index (a :: l) 0 = Ok a.
Proof. apply py_index_in_range; [lia|reflexivity]. Qed.
Lemma or_Zid z : or_Z (Some z) 0 = z.
Proof. unfold or_Z. destruct (Z.eqb_spec z 0); lia. Qed.
Lemma int8_fits : fits_i32 int8.
Proof. unfold fits_i32. cbn. lia. Qed.
Lemma requant_spec f si zi so zo q : in_dtype int8 zi -> in_dtype int8 q ->
  requantized int8 f si zi so zo q = clamp (-128) 127 (half_up (f (inject_Z (q - zi) * si)%Q / so + inject_Z zo)).
Proof.
  intros Hz Hq. unfold requantized. rewrite quantize_none. cbn [scalar nd_get dequantize nd_map].
  rewrite (dequant1_nowrap int8); [|exact int8_fits|unfold zp_nowrap, in_dtype in *; cbn [gmin gmax int8] in *; lia|exact Hq].
  unfold quant1. rewrite q_round_clip by exact int8_fits. rewrite clamp_clip by lia. reflexivity.
Qed.
Lemma clamp_dt d x : gmin d <= gmax d -> in_dtype d (clamp (gmin d) (gmax d) x).
Proof. intros H. rewrite clamp_clip by exact H. apply clipZ_range. exact H. Qed.
Lemma rows_map {A B} (h : A -> B) (P : B -> Prop) n (x : list (list A)) : (forall v, P (h v)) -> Forall (fun r => length r = n) x ->
  Forall (fun r => length r = n /\ Forall P r) (map (map h) x).
Proof.
  intros H F. apply Forall_map. eapply Forall_impl; [|exact F]. intros r L. split; [now rewrite map_length|].
  apply Forall_map. apply Forall_forall. intros v _. apply H.
Qed.
Lemma map_map_ext {A B} (g h : A -> B) (P : A -> Prop) n x : (forall v, P v -> g v = h v) -> Forall (fun r => length r = n /\ Forall P r) x ->
  map (map g) x = map (map h) x.
Proof.
  intros H F. induction F as [|r x (_ & Fr) _ IH]; [reflexivity|]. cbn [map]. rewrite IH. f_equal.
  induction Fr as [|v r Hv _ IHr]; [reflexivity|]. cbn [map]. now rewrite H, IHr.
Qed.
(** the table layer on a batch *)
Lemma lut_batch f si zi so zo n x l : in_dtype int8 zi -> (0 < n)%nat -> x <> [] ->
  Forall (fun r => length r = n /\ Forall (in_dtype int8) r) x ->
  lut_from_node (Some (json_reduced int8 f si zi so zo 3 0)) = Ok l ->
  match concat x with [] => Err EValueError | _ => do m <- mapM (mapM (fun v => lookup (la_table l) (v + la_offset l))) x; Ok (VI m) end =
  Ok (VI (map (map (fun q => clamp (-128) 127 (half_up (f (inject_Z (q - zi) * si)%Q / so + inject_Z zo)))) x)).
Proof.
  intros Hz Hn Nx F L.
  assert (One : forall q, in_dtype int8 q -> lookup (la_table l) (q + la_offset l) =
    Ok (clamp (-128) 127 (half_up (f (inject_Z (q - zi) * si)%Q / so + inject_Z zo)))).
  { intros q Hq. pose proof (C18_reduced_table int8 f si zi so zo 3 0 [q]) as T. rewrite L in T. cbn [rbind] in T.
    specialize (T ltac:(discriminate)). unfold lut_infer in T. cbn [mapM map] in T.
    destruct (lookup (la_table l) (q + la_offset l)) as [r|e]; cbn [rbind] in T.
    - rewrite requant_spec in T by assumption. assert (T' : Ok [r] = Ok [clamp (-128) 127 (half_up (f (inject_Z (q - zi) * si)%Q / so + inject_Z zo))]).
      { apply T. intros q0 [<-|[]]. exact Hq. } injection T' as ->. reflexivity.
    - assert (T' : @Err (list Z) e = Ok [requantized int8 f si zi so zo q]) by (apply T; intros q0 [<-|[]]; exact Hq). discriminate. }
  assert (Nc : concat x <> []).
  { destruct x as [|r x]; [congruence|]. inversion F as [|? ? (Lr & _) _]; subst. cbn. destruct r; [cbn in Hn; lia|discriminate]. }
  destruct (concat x) as [|c cs] eqn:Ec; [congruence|].
  rewrite (mapM_ok_map _ (map (fun q => clamp (-128) 127 (half_up (f (inject_Z (q - zi) * si)%Q / so + inject_Z zo))))); [reflexivity|].
  intros r Hr. apply mapM_ok_map. intros q Hq. rewrite Forall_forall in F. destruct (F r Hr) as (_ & Fr). rewrite Forall_forall in Fr. apply One. now apply Fr.
Qed.
Section step.
  Variables (tanh sigmoid : Q -> Q) (it : tinterp) (m : tmodel) (op : toper).
  Hypothesis D : describes it m.
  Hypothesis Op : op_ok it m op.
  (** what [build_from_operator] and the engine's dispatch make of [op] *)
  Lemma base_parts ty a ks o : is_op m op ty (a :: ks) o -> chars_eqb ty (str "TANH") = false -> chars_eqb ty (str "LOGISTIC") = false ->
    exists i is u, build_from_operator tanh sigmoid it m op = Ok (mkjop ty ty (mktb (i :: is) [u] ty)) /\
      node_of it m a i /\ Forall2 (node_of it m) ks is /\ node_of it m o u.
  Proof.
    intros (A & Ei & Eo) T L. destruct Op as (_ & Fi & Fo). rewrite Ei in Fi. rewrite Eo in Fo.
    destruct (fetch_all it m _ D Fi) as (ji & Bi & Ni). destruct (fetch_all it m _ D Fo) as (jo & Bo & No).
    inversion Ni as [|? i ? is N1 N2]; subst. inversion No as [|? u ? us N3 N4]; subst. inversion N4; subst.
    exists i, is, u. split; [|auto]. unfold build_from_operator. rewrite (proj2 (fb_at_ok _ _ _) A). cbn [rbind]. rewrite T, L.
    apply base_build_ok. exists ty, (i :: is), [u]. rewrite Ei, Eo. auto.
  Qed.
  Lemma lut_parts ty f nm a o si zi so zo : is_op m op ty [a] o -> quantized_as m a int8 si zi -> quantized_as m o int8 so zo ->
    (forall x, build_from_operator tanh sigmoid it m op = x <-> lut_build f nm it m op = x) ->
    exists i u, build_from_operator tanh sigmoid it m op = Ok (mkjop nm nm (mktb [set_lut i (json_reduced int8 f si zi so zo 3 0)] [u] ty)) /\
      node_of it m a i /\ node_of it m o u.
  Proof.
    intros (A & Ei & Eo) Qa Qo E. destruct Op as (_ & Fi & Fo). rewrite Ei in Fi. rewrite Eo in Fo.
    destruct (fetch_all it m _ D Fi) as (ji & Bi & Ni). destruct (fetch_all it m _ D Fo) as (jo & Bo & No).
    inversion Ni as [|? i ? is N1 N2]; subst. inversion No as [|? u ? us N3 N4]; subst. inversion N4; subst. inversion N2; subst.
    exists i, u. split; [|auto]. apply E. apply lut_build_ok. exists ty, i, [], u, []. rewrite Ei, Eo. split; [exact A|]. split; [exact Bi|]. split; [exact Bo|].
    destruct (node_q _ _ _ _ _ _ _ N1 Qa) as (_ & -> & ->). destruct (node_q _ _ _ _ _ _ _ N3 Qo) as (_ & -> & ->).
    rewrite !or_Zid. unfold or_Q. rewrite (quant_nz _ _ _ _ _ Qa), (quant_nz _ _ _ _ _ Qo). reflexivity.
  Qed.
  Lemma lut_step ty nm f a o si zi so zo n v : is_op m op ty [a] o -> quantized_as m a int8 si zi -> quantized_as m o int8 so zo ->
    in_dtype int8 zi -> (0 < n)%nat ->
    (forall x, build_from_operator tanh sigmoid it m op = x <-> lut_build f nm it m op = x) ->
    (forall b, build_layer te_builders (mkjop nm nm b) = te_lut b) ->
    has_type (TCode int8 n) v ->
    exists j l x, build_from_operator tanh sigmoid it m op = Ok j /\ build_layer te_builders j = Ok l /\ v = VI x /\
      l v = Ok (VI (map (map (fun q => clamp (-128) 127 (half_up (f (inject_Z (q - zi) * si)%Q / so + inject_Z zo)))) x)) /\
      has_type (TCode int8 n) (VI (map (map (fun q => clamp (-128) 127 (half_up (f (inject_Z (q - zi) * si)%Q / so + inject_Z zo)))) x)).
  Proof.
    intros I0 Qa Qo Hz Hn E EB Ht. destruct (lut_parts ty f nm a o si zi so zo I0 Qa Qo E) as (i & u & B & _ & _).
    destruct v as [|x]; [destruct Ht|]. destruct Ht as (Nx & F).
    destruct (lut_from_node (Some (json_reduced int8 f si zi so zo 3 0))) as [l|] eqn:L; [|discriminate].
    eexists. eexists. exists x. split; [exact B|]. split; [rewrite EB; unfold te_lut; cbn [tb_in]; rewrite py_hd; cbn [rbind tj_lut set_lut]; rewrite L; reflexivity|].
    split; [reflexivity|]. split; [cbv beta; cbn [asI]; exact (lut_batch f si zi so zo n x l Hz Hn Nx F L)|].
    split; [intros X; now apply map_eq_nil in X|]. apply rows_map; [intros q; apply (clamp_dt int8); cbn; lia|].
    eapply Forall_impl; [|exact F]. intros r (Lr & _). exact Lr.
  Qed.
  Lemma step_ok T T' v : runnable it m op T T' -> has_type T v ->
    exists j l w, build_from_operator tanh sigmoid it m op = Ok j /\ build_layer te_builders j = Ok l /\ l v = Ok w /\
      t_step tanh sigmoid it m op v w /\ has_type T' w.
  Proof.
    intros R Ht. destruct R as [a o d s z n I0 Qo N|a o d s z n I0 Qa N Hz|a o si zi so zo n I0 Qa Qo Hz Hn|a o si zi so zo n I0 Qa Qo Hz Hn
      |a k b o da si zi dk sk zk d so zo W bias n I0 Fu Qa Qk Qo Ck Cb HW Hb N Hz M1 M2|a o s z n I0 Qa Qo Hz].
    - destruct (base_parts _ _ _ _ I0 eq_refl eq_refl) as (i & is & u & B & _ & _ & Nu). destruct (node_q _ _ _ _ _ _ _ Nu Qo) as (Pd & Ps & Pz).
      destruct v as [x|x]; [|destruct Ht]. destruct Ht as (Nx & F). destruct N as (N1 & _).
      eexists. eexists. eexists. split; [exact B|]. split; [|split; [|split; [exact (ts_quantize tanh sigmoid it m op a o d s z x I0 Qo)|]]].
      + unfold build_layer. change (build_layer_kind (jo_type _)) with (Ok KQuantize). cbn [rbind b_tflite te_builders jo_body]. unfold te_quantize. cbn [tb_out].
        rewrite py_hd. cbn [rbind]. rewrite Pd. cbn [rbind]. rewrite Ps, Pz. reflexivity.
      + cbv beta. cbn [asF]. f_equal. f_equal. apply map_ext. intros r. apply map_ext. intros y. unfold quant1. rewrite q_round_clip by exact N1.
        rewrite clamp_clip by apply N1. reflexivity.
      + split; [intros X; now apply map_eq_nil in X|]. apply rows_map; [intros y; apply clamp_dt; apply N1|exact F].
    - destruct (base_parts _ _ _ _ I0 eq_refl eq_refl) as (i & is & u & B & Ni & _ & _). destruct (node_q _ _ _ _ _ _ _ Ni Qa) as (Pd & Ps & Pz).
      destruct v as [x|x]; [destruct Ht|]. destruct Ht as (Nx & F). destruct N as (N1 & N2 & N3).
      eexists. eexists. eexists. split; [exact B|]. split; [|split; [|split; [exact (ts_dequantize tanh sigmoid it m op a o d s z x I0 Qa)|]]].
      + unfold build_layer. change (build_layer_kind (jo_type _)) with (Ok KDequantize). cbn [rbind b_tflite te_builders jo_body]. unfold te_dequantize. cbn [tb_in].
        rewrite py_hd. cbn [rbind]. rewrite Pd. cbn [rbind]. rewrite Ps, Pz. reflexivity.
      + cbv beta. cbn [asI]. f_equal. f_equal. apply (map_map_ext _ _ (in_dtype d) n); [|exact F]. intros q Hq.
        apply (dequant1_nowrap d); [exact N1| |exact Hq]. unfold zp_nowrap, in_dtype in *. lia.
      + split; [intros X; now apply map_eq_nil in X|]. apply Forall_map. eapply Forall_impl; [|exact F]. intros r (Lr & _). now rewrite map_length.
    - destruct (lut_step (str "TANH") (str "TANHLUT") tanh a o si zi so zo n v) as (j & l & x & B & L & -> & E & H); try assumption; [|reflexivity|].
      { intros x. unfold build_from_operator. rewrite (proj2 (fb_at_ok _ _ _) (proj1 I0)). reflexivity. }
      eexists. eexists. eexists. split; [exact B|]. split; [exact L|]. split; [exact E|]. split; [exact (ts_tanh tanh sigmoid it m op a o si zi so zo x I0 Qa Qo)|exact H].
    - destruct (lut_step (str "LOGISTIC") (str "SIGMOIDLUT") sigmoid a o si zi so zo n v) as (j & l & x & B & L & -> & E & H); try assumption; [|reflexivity|].
      { intros x. unfold build_from_operator. rewrite (proj2 (fb_at_ok _ _ _) (proj1 I0)). reflexivity. }
      eexists. eexists. eexists. split; [exact B|]. split; [exact L|]. split; [exact E|]. split; [exact (ts_logistic tanh sigmoid it m op a o si zi so zo x I0 Qa Qo)|exact H].
    - destruct (base_parts _ _ _ _ I0 eq_refl eq_refl) as (i & is & u & B & Ni & Nis & Nu).
      inversion Nis as [|? kn ? r1 Nk Nr1]; subst. inversion Nr1 as [|? bn ? r2 Nb Nr2]; subst. inversion Nr2; subst. clear Nis Nr1 Nr2.
      destruct (node_q _ _ _ _ _ _ _ Ni Qa) as (_ & Is & Iz). destruct (node_q _ _ _ _ _ _ _ Nk Qk) as (_ & Ks & Kz).
      destruct (node_q _ _ _ _ _ _ _ Nu Qo) as (Pd & Us & Uz). pose proof (node_c _ _ _ _ _ Nk Ck) as Kt. pose proof (node_c _ _ _ _ _ Nb Cb) as Bt.
      destruct v as [x|x]; [destruct Ht|]. destruct Ht as (Nx & F). destruct N as (N1 & N2 & N3).
      assert (EM : exists f, fc_mult_of si sk so = Ok f) by (rewrite fc_mult_of_nz by (intros Z0; unfold Qdiv in M1; rewrite Z0 in M1; change (/ 0)%Q with 0%Q in M1; rewrite Qmult_0_r in M1; vm_compute in M1; apply M1; reflexivity); apply fc_mult_ok_iff; exact M2).
      destruct EM as (f & EM). destruct (fc_build si zi sk zk W bias so zo d) as [l|] eqn:L.
      2:{ unfold fc_build in L. rewrite EM in L. discriminate. }
      assert (Hd : gmin d <= gmax d) by lia. assert (Hzo : Z.abs zo <= 2 ^ 62) by (unfold in_dtype, within_int32 in *; lia).
      assert (G : exists y, Forall2 (fun r y => fc_infer l (T1 r) = Ok (T1 y)) x y /\ Forall2 (fc_row si zi sk zk W bias so zo d) x y).
      { clear Nx. induction F as [|r x (Lr & _) F (y & Y1 & Y2)]; [exists []; split; constructor|].
        assert (Gs : good_shapes W bias r) by (split; [intros w Hw; rewrite Lr; now apply HW|exact Hb]).
        destruct (C15_close_to_clipped_real si zi sk zk W bias so zo d l r L Gs Hd Hzo M1) as (y0 & E0 & L0 & P0).
        exists (y0 :: y). split; [now constructor|]. constructor; [|exact Y2]. split; [exact L0|]. intros j Hj. cbv zeta. split; [|now apply P0].
        pose proof (C16_range _ _ _ _ _ _ _ _ _ _ _ _ L Hd E0) as Rg. cbn in Rg. apply Rg. apply nth_In. lia. }
      destruct G as (y & Y1 & Y2).
      eexists. eexists. exists (VI y). split; [exact B|]. split; [|split; [|split; [exact (ts_fc tanh sigmoid it m op a k b o da si zi dk sk zk d so zo W bias x y I0 Fu Qa Qk Qo Ck Cb Y2)|]]].
      + unfold build_layer. change (build_layer_kind (jo_type _)) with (Ok KFullyConnected). cbn [rbind b_tflite te_builders jo_body]. unfold te_fc. cbn [tb_in tb_out].
        rewrite !py_hd. cbn [rbind]. rewrite (py_index_in_range [i; kn; bn] 1 kn), (py_index_in_range [i; kn; bn] 2 bn); [|cbn; lia|reflexivity|cbn; lia|reflexivity].
        cbn [rbind]. rewrite Is, Iz, Ks, Kz, Us, Uz, Kt, Bt, EM. cbn [rbind]. rewrite Pd. cbn [rbind]. rewrite L. reflexivity.
      + cbv beta. cbn [asI]. rewrite (proj2 (C16_batch_is_rowwise l x y) Y1). reflexivity.
      + split; [intros ->; inversion Y1; subst; congruence|]. clear - Y2. induction Y2 as [|r y0 x y (L0 & P0) _ IH]; constructor; [|exact IH].
        split; [exact L0|]. apply Forall_forall. intros q Hq. apply In_nth with (d := 0) in Hq as (j & Hj & <-). rewrite L0 in Hj. now apply P0.
    - destruct (base_parts _ _ _ _ I0 eq_refl eq_refl) as (i & is & u & B & Ni & _ & Nu).
      destruct (node_q _ _ _ _ _ _ _ Ni Qa) as (_ & Is & Iz). destruct (node_q _ _ _ _ _ _ _ Nu Qo) as (_ & Us & Uz).
      destruct v as [x|x]; [destruct Ht|]. destruct Ht as (Nx & F).
      eexists. eexists. eexists. split; [exact B|]. split; [|split; [|split; [exact (ts_relu tanh sigmoid it m op a o s z x I0 Qa Qo)|]]].
      + unfold build_layer. change (build_layer_kind (jo_type _)) with (Ok KRelu). cbn [rbind b_tflite te_builders jo_body]. unfold te_relu. cbn [tb_in tb_out].
        rewrite !py_hd. cbn [rbind]. rewrite Is, Iz, Us, Uz, (quant_nz _ _ _ _ _ Qo). reflexivity.
      + cbv beta. cbn [asI]. f_equal. f_equal. apply (map_map_ext _ _ (in_dtype int8) n); [|exact F]. intros q Hq. rewrite Z.max_comm.
        apply relu_same; [|exact Hq|exact Hz]. intros X. apply Qeq_bool_iff in X. rewrite (quant_nz _ _ _ _ _ Qo) in X. discriminate.
      + split; [intros X; now apply map_eq_nil in X|]. apply Forall_map. eapply Forall_impl; [|exact F]. intros r (Lr & Fr). rewrite map_length. split; [exact Lr|].
        apply Forall_map. eapply Forall_impl; [|exact Fr]. intros q Hq. unfold in_dtype in *. cbn [gmin gmax int8] in *. lia.
  Qed.
End step.
(** A RELU operator whose input and output have different scales but the same zero point is converted and loaded as a layer whose codes
    are within one step of the requantized rectified value, as long as that is at most 127 (else C19_relu_wraps_refuted; for different
    zero points C19_relu_zero_point_refuted). *)
Theorem C72_relu_rescaled : forall tanh sigmoid it m op a o si so z, describes it m -> op_ok it m op -> is_op m op (str "RELU") [a] o ->
  quantized_as m a int8 si z -> quantized_as m o int8 so z -> (0 < si)%Q -> (0 < so)%Q -> in_dtype int8 z ->
  exists j l, build_from_operator tanh sigmoid it m op = Ok j /\ build_layer te_builders j = Ok l /\
    forall x, exists y, l (VI x) = Ok (VI y) /\
      Forall2 (Forall2 (fun q c => in_dtype int8 q -> (inject_Z z + si / so * inject_Z (Z.max q z - z) <= 127)%Q -> Z.abs (c - relu_ref si z so z q) <= 1)) x y.
Proof.
  intros tanh sigmoid it m op a o si so z D Op I0 Qa Qo Hi Ho Hz.
  destruct (base_parts tanh sigmoid it m op D Op _ _ _ _ I0 eq_refl eq_refl) as (i & is & u & B & Ni & _ & Nu).
  destruct (node_q _ _ _ _ _ _ _ Ni Qa) as (_ & Is & Iz). destruct (node_q _ _ _ _ _ _ _ Nu Qo) as (_ & Us & Uz).
  eexists. eexists. split; [exact B|]. split.
  - unfold build_layer. change (build_layer_kind (jo_type _)) with (Ok KRelu). cbn [rbind b_tflite te_builders jo_body]. unfold te_relu. cbn [tb_in tb_out].
    rewrite !py_hd. cbn [rbind]. rewrite Is, Iz, Us, Uz, (quant_nz _ _ _ _ _ Qo). reflexivity.
  - intros x. eexists. split; [reflexivity|]. cbn [asI]. induction x as [|r x IH]; [constructor|]. cbn [map]. constructor; [|exact IH]. clear - Hi Ho Hz.
    induction r as [|q r IH]; [constructor|]. cbn [map]. constructor; [|exact IH]. intros Hq Hb. now apply C19_relu_same_zero_point.
Qed.
Lemma run_ok tanh sigmoid it m ops : describes it m -> Forall (op_ok it m) ops -> forall T T' v k k' e,
  all_runnable it m ops T T' -> has_type T v -> chained k ops k' -> e k = Some v ->
  exists g ls t w e', mapM (build_from_operator tanh sigmoid it m) ops = Ok g /\ mapM (build_layer te_builders) g = Ok ls /\ runs ls v t w /\
    t_run tanh sigmoid it m ops e e' /\ e' k' = Some w /\ has_type T' w.
Proof.
  intros D F. induction F as [|op ops Op F IH]; intros T T' v k k' e R Ht Ch Ek.
  - inversion R; subst. cbn in Ch. subst k'. exists [], [], [], v, e. repeat split; try reflexivity; try constructor; assumption.
  - inversion R as [|? ? ? T1 ? R1 R2]; subst. destruct Ch as (ir & o & Ei & Eo & Ch).
    destruct (step_ok tanh sigmoid it m op D Op T T1 v R1 Ht) as (j & l & w1 & B & L & E & St & Ht1).
    destruct (IH T1 T' w1 o k' (write e o w1) R2 Ht1 Ch) as (g & ls & t & w & e' & Bg & Lg & Rg & Tr & Ew & Hw); [unfold write; now rewrite Z.eqb_refl|].
    exists (j :: g), (l :: ls), (w1 :: t), w, e'. cbn [mapM]. rewrite B. cbn [rbind]. rewrite Bg. cbn [rbind]. rewrite L. cbn [rbind]. rewrite Lg.
    split; [reflexivity|]. split; [reflexivity|]. split; [econstructor; eauto|]. split; [econstructor; eauto|]. auto.
Qed.
(** For every model that starts with QUANTIZE, whose operators are runnable and chained from its first input to its first output, and every batch:
    converting, loading and running succeeds, and the result is the value the model's operators give its output tensor. *)
Theorem C72_conversion_correct : forall tanh sigmoid toi8 it m op0 ops i ir o or n T' x,
  describes it m -> Forall (op_ok it m) (tm_ops m) -> Forall (tensor_ok it m) (tm_inputs m) -> Forall (tensor_ok it m) (tm_outputs m) ->
  tm_ops m = op0 :: ops -> at_ (tm_codes m) (to_code op0) (str "QUANTIZE") ->
  tm_inputs m = i :: ir -> tm_outputs m = o :: or -> chained i (tm_ops m) o -> all_runnable it m (tm_ops m) (TFloat n) T' ->
  has_type (TFloat n) (VF x) ->
  exists w e', t_execute tanh sigmoid toi8 it m (VF x) = Ok w /\ has_type T' w /\
    t_run tanh sigmoid it m (tm_ops m) (write (fun _ => None) i (VF x)) e' /\ e' o = Some w.
Proof.
  intros tanh sigmoid toi8 it m op0 ops i ir o or n T' x D Fo Fi Fu Eops Q0 Ei Eo Ch R Ht.
  destruct (run_ok tanh sigmoid it m (tm_ops m) D Fo (TFloat n) T' (VF x) i o (write (fun _ => None) i (VF x)) R Ht Ch) as
    (g & ls & t & w & e' & Bg & Lg & Rg & Tr & Ew & Hw); [unfold write; now rewrite Z.eqb_refl|].
  exists w, e'. split; [|auto]. unfold t_execute, convert.
  change (fun k => do t <- fb_at (tm_tensors m) k; build_from_node it t) with (fetch it m).
  destruct (fetch_all it m _ D Fi) as (ji & -> & Ni). destruct (fetch_all it m _ D Fu) as (jo & -> & No). rewrite Bg. cbn [rbind].
  rewrite Ei in Ni. rewrite Eo in No. inversion Ni as [|? j0 ? jr]; subst. inversion No as [|? u0 ? ur]; subst.
  assert (Fst : exists j g', g = j :: g' /\ jo_name j = str "QUANTIZE").
  { rewrite Eops in Bg. cbn [mapM] in Bg. destruct (build_from_operator tanh sigmoid it m op0) as [j|] eqn:B; cbn [rbind] in Bg; [|discriminate].
    destruct (mapM _ ops) as [g'|]; cbn [rbind] in Bg; [|discriminate]. injection Bg as <-. exists j, g'. split; [reflexivity|].
    unfold build_from_operator in B. rewrite (proj2 (fb_at_ok _ _ _) Q0) in B. cbn [rbind] in B.
    change (chars_eqb (str "QUANTIZE") (str "TANH")) with false in B. change (chars_eqb (str "QUANTIZE") (str "LOGISTIC")) with false in B. cbv iota in B.
    apply base_build_ok in B as (ty & a & b & A & _ & _ & ->). rewrite (at_fun _ _ _ _ A Q0). reflexivity. }
  destruct Fst as (j & g' & -> & Nj).
  unfold seq_init, to_seq. cbn [jt_input jt_output jt_graph jt_engine tn_input tn_output tn_graph map]. rewrite !py_hd. cbn [rbind].
  rewrite Nj. change (get_engine te_builders (str "TFLITE")) with (Ok (build_layer te_builders)). cbn [rbind]. rewrite Lg. cbn [rbind].
  set (sn := mkseq _ _ _ ls []). assert (Hq : sn_quant sn = true) by reflexivity.
  change ls with (sn_layers sn) in Rg. apply (C20_infer_composes pval toi8 sn (VF x) t w Hq) in Rg. now rewrite Rg.
Qed.

(** ** Examples *)
Definition ex_q (s : Q) (z : Z) := Some (mktq (Some [s]) (Some [z])).
Definition ex_t (n ty : chars) (st : bool) q := mktt (Some n) (Some [1; 2]) ty st q.
Definition ex_it : tinterp := mkti [(str "x", 0); (str "xq", 1); (str "w", 2); (str "b", 3); (str "h", 4); (str "t", 5); (str "y", 6)]
  (fun k => if k =? 2 then mktd [2; 2] (PMat [[10; -20]; [30; 5]]) else mktd [2] (PVec [100; -50])).
Definition ex_m : tmodel := mktm 3 [str "QUANTIZE"; str "FULLY_CONNECTED"; str "TANH"; str "DEQUANTIZE"]
  [ex_t (str "x") (str "FLOAT32") false None; ex_t (str "xq") (str "INT8") false (ex_q (1#10) 3); ex_t (str "w") (str "INT8") true (ex_q (1#20) 0);
   ex_t (str "b") (str "INT32") true (ex_q (1#200) 0); ex_t (str "h") (str "INT8") false (ex_q (1#4) (-5)); ex_t (str "t") (str "INT8") false (ex_q (1#128) 0);
   ex_t (str "y") (str "FLOAT32") false None]
  [mkto 0 [0] [1] []; mkto 1 [1; 2; 3] [4] (str "NONE"); mkto 2 [4] [5] []; mkto 3 [5] [6] []] [0] [6].
Definition ex_f (x : Q) : Q := (x / (1 + Qabs x))%Q.
Lemma ex_describes : describes ex_it ex_m.
Proof.
  split; [cbn; repeat constructor; cbn; intuition discriminate|].
  intros k t n (K & A) C. destruct (Z.to_nat k) as [|[|[|[|[|[|[|?]]]]]]] eqn:E; cbn in A; try (injection A as <-); try (destruct n0; discriminate);
    unfold called in C; cbn in C; subst n; cbn [ex_it ti_details In]; rewrite <- (Z2Nat.id k K), E; cbn; auto 10.
Qed.
Ltac ex_at := split; [cbn; lia|reflexivity].
Ltac ex_quant := eexists; split; [ex_at|]; split; [vm_compute; reflexivity|]; eexists; split; [reflexivity|]; split; [reflexivity|]; split; [intros X; discriminate X|left; reflexivity].
Ltac ex_tensor := eexists; split; [ex_at|]; split;
  [eexists; split; [reflexivity|intros _; cbn; auto 10]|split; [intros _; discriminate|intros q0 X; try discriminate X; injection X as <-; split; exact I]].
Lemma ex_ops_ok : Forall (op_ok ex_it ex_m) (tm_ops ex_m).
Proof.
  repeat (apply Forall_cons || apply Forall_nil);
    (split; [eexists; split; [ex_at|intros _; split; discriminate]|split; repeat (apply Forall_cons || apply Forall_nil); ex_tensor]).
Qed.
Lemma int8_narrow : narrow int8.
Proof. unfold narrow, within_int32. cbn. lia. Qed.
Lemma ex_runnable : all_runnable ex_it ex_m (tm_ops ex_m) (TFloat 2) (TFloat 2).
Proof.
  eapply ar_cons; [eapply (rn_quantize _ _ _ 0 1 int8 (1#10) 3); [split; [ex_at|split; reflexivity]|ex_quant|exact int8_narrow]|].
  eapply ar_cons; [eapply (rn_fc _ _ _ 1 2 3 4 int8 (1#10) 3 int8 (1#20) 0 int8 (1#4) (-5) [[10; -20]; [30; 5]] [100; -50] 2);
    [split; [ex_at|split; reflexivity]|reflexivity|ex_quant|ex_quant|ex_quant|eexists; split; [ex_at|split; reflexivity]|eexists; split; [ex_at|split; reflexivity]
    |intros w [<-|[<-|[]]]; reflexivity|reflexivity|exact int8_narrow|unfold in_dtype; cbn; lia|vm_compute; discriminate|vm_compute; reflexivity]|].
  eapply ar_cons; [eapply (rn_tanh _ _ _ 4 5 (1#4) (-5) (1#128) 0); [split; [ex_at|split; reflexivity]|ex_quant|ex_quant|unfold in_dtype; cbn; lia|cbn; lia]|].
  eapply ar_cons; [eapply (rn_dequantize _ _ _ 5 6 int8 (1#128) 0); [split; [ex_at|split; reflexivity]|ex_quant|exact int8_narrow|unfold in_dtype; cbn; lia]|].
  apply ar_nil.
Qed.
(** A quantized two-neuron network meets every hypothesis and gives: *)
Example C72_example : forall toi8,
  (exists w e', t_execute ex_f ex_f toi8 ex_it ex_m (VF [[1; -1#2]; [3; 2]]%Q) = Ok w /\ has_type (TFloat 2) w /\
    t_run ex_f ex_f ex_it ex_m (tm_ops ex_m) (write (fun _ => None) 0 (VF [[1; -1#2]; [3; 2]]%Q)) e' /\ e' 6 = Some w) /\
  t_execute ex_f ex_f (fun v _ _ => Ok v) ex_it ex_m (VF [[1; -1#2]; [3; 2]]%Q) = Ok (VF [[77 # 128; 71 # 128]; [0 # 128; 106 # 128]]).
Proof.
  intros toi8. split; [|vm_compute; reflexivity].
  apply (C72_conversion_correct ex_f ex_f toi8 ex_it ex_m (mkto 0 [0] [1] []) [mkto 1 [1; 2; 3] [4] (str "NONE"); mkto 2 [4] [5] []; mkto 3 [5] [6] []] 0 [] 6 [] 2).
  - exact ex_describes.
  - exact ex_ops_ok.
  - repeat (apply Forall_cons || apply Forall_nil); ex_tensor.
  - repeat (apply Forall_cons || apply Forall_nil); ex_tensor.
  - reflexivity.
  - ex_at.
  - reflexivity.
  - reflexivity.
  - cbn. eexists _, _. split; [reflexivity|]. split; [reflexivity|]. eexists _, _. split; [reflexivity|]. split; [reflexivity|].
    eexists _, _. split; [reflexivity|]. split; [reflexivity|]. eexists _, _. split; [reflexivity|]. split; reflexivity.
  - exact ex_runnable.
  - split; [discriminate|repeat constructor].
Qed.
(** Where the hypotheses fail, so does the claim.  The engine ignores the wiring: TANH and LOGISTIC both read the quantized input here, and the
    engine feeds the output of the first to the second. *)
Definition fork_m : tmodel := mktm 3 [str "QUANTIZE"; str "TANH"; str "LOGISTIC"]
  [ex_t (str "x") (str "FLOAT32") false None; ex_t (str "xq") (str "INT8") false (ex_q (1#10) 0); ex_t (str "w") (str "INT8") false (ex_q (1#10) 0);
   ex_t (str "b") (str "INT8") false (ex_q (1#10) 0)]
  [mkto 0 [0] [1] []; mkto 1 [1] [2] []; mkto 2 [1] [3] []] [0] [3].
Theorem C72_wiring_ignored_refuted : exists m f g e' w w',
  t_run f g ex_it m (tm_ops m) (write (fun _ => None) 0 (VF [[1]]%Q)) e' /\ e' 3 = Some w /\ tm_inputs m = [0] /\ tm_outputs m = [3] /\
  t_execute f g (fun v _ _ => Ok v) ex_it m (VF [[1]]%Q) = Ok w' /\ w = VI [[30]] /\ w' = VI [[60]].
Proof.
  exists fork_m, (fun x => 2 * x)%Q, (fun x => 3 * x)%Q. eexists. eexists. eexists.
  split.
  { eapply tr_cons; [reflexivity|reflexivity|reflexivity|eapply (ts_quantize _ _ _ _ _ 0 1 int8 (1#10) 0); [split; [ex_at|split; reflexivity]|ex_quant]|].
    eapply tr_cons; [reflexivity|reflexivity|reflexivity|eapply (ts_tanh _ _ _ _ _ 1 2 (1#10) 0 (1#10) 0); [split; [ex_at|split; reflexivity]|ex_quant|ex_quant]|].
    eapply tr_cons; [reflexivity|reflexivity|reflexivity|eapply (ts_logistic _ _ _ _ _ 1 3 (1#10) 0 (1#10) 0); [split; [ex_at|split; reflexivity]|ex_quant|ex_quant]|].
    apply tr_nil. }
  split; [reflexivity|]. split; [reflexivity|]. split; [reflexivity|]. split; [vm_compute; reflexivity|]. split; [vm_compute; reflexivity|reflexivity].
Qed.
(** A fused ReLU is not applied: the fully connected layer of this file returns a negative value. *)
Definition relu_m : tmodel := mktm 3 [str "QUANTIZE"; str "FULLY_CONNECTED"; str "DEQUANTIZE"]
  [ex_t (str "x") (str "FLOAT32") false None; ex_t (str "xq") (str "INT8") false (ex_q (1#10) 3); ex_t (str "w") (str "INT8") true (ex_q (1#20) 0);
   ex_t (str "b") (str "INT32") true (ex_q (1#200) 0); ex_t (str "h") (str "INT8") false (ex_q (1#4) (-5)); ex_t (str "y") (str "FLOAT32") false None]
  [mkto 0 [0] [1] []; mkto 1 [1; 2; 3] [4] (str "RELU"); mkto 2 [4] [5] []] [0] [5].
Theorem C72_fused_relu_refuted : exists m op v, In op (tm_ops m) /\ to_fused op = str "RELU" /\
  t_execute ex_f ex_f (fun v _ _ => Ok v) ex_it m (VF [[-3; 2]]%Q) = Ok (VF [[v; -17 # 4]]) /\ (v < 0)%Q.
Proof.
  exists relu_m, (mkto 1 [1; 2; 3] [4] (str "RELU")). eexists. split; [cbn; auto|]. split; [reflexivity|]. split; [vm_compute; reflexivity|reflexivity].
Qed.
(** SOFTMAX is the identity on codes: the outputs need not sum to 1. *)
Definition soft_m : tmodel := mktm 3 [str "QUANTIZE"; str "SOFTMAX"; str "DEQUANTIZE"]
  [ex_t (str "x") (str "FLOAT32") false None; ex_t (str "xq") (str "INT8") false (ex_q (1#10) 3); ex_t (str "w") (str "INT8") false (ex_q (1#256) (-128));
   ex_t (str "b") (str "FLOAT32") false None]
  [mkto 0 [0] [1] []; mkto 1 [1] [2] []; mkto 2 [2] [3] []] [0] [3].
Theorem C72_softmax_refuted : t_execute ex_f ex_f (fun v _ _ => Ok v) ex_it soft_m (VF [[1; 1]]%Q) = Ok (VF [[141 # 256; 141 # 256]]).
Proof. vm_compute. reflexivity. Qed.
(** A 16-bit TANH gets the 256-entry table of int8: inputs beyond 127 codes saturate ([f] the identity: 1 comes out as 0.127). *)
Definition wide_m : tmodel := mktm 3 [str "QUANTIZE"; str "TANH"; str "DEQUANTIZE"]
  [ex_t (str "x") (str "FLOAT32") false None; ex_t (str "xq") (str "INT16") false (ex_q (1#1000) 0); ex_t (str "w") (str "INT16") false (ex_q (1#1000) 0);
   ex_t (str "b") (str "FLOAT32") false None]
  [mkto 0 [0] [1] []; mkto 1 [1] [2] []; mkto 2 [2] [3] []] [0] [3].
Theorem C72_int16_table_refuted :
  t_execute (fun x => x) (fun x => x) (fun v _ _ => Ok v) ex_it wide_m (VF [[1; 1#10]]%Q) = Ok (VF [[127 # 1000; 100 # 1000]]).
Proof. vm_compute. reflexivity. Qed.
(** An output tensor without quantization parameters loads, but the first batch raises TypeError. *)
Theorem C72_unquantized_raises : forall tanh sigmoid it m op0 ops j n x o t toi8, describes it m ->
  tm_ops m = op0 :: ops -> at_ (tm_codes m) (to_code op0) (str "QUANTIZE") -> to_out op0 = [o] -> at_ (tm_tensors m) o t -> unquantized t ->
  convert tanh sigmoid it m = Ok j -> seq_init te_builders (to_seq j) = Ok n ->
  snd (seq_infer toi8 n (VF x)) = Err ETypeError.
Proof.
  intros tanh sigmoid it m op0 ops j n x o t toi8 D Eops Q0 Eo At Un C L.
  destruct (C71_faithful tanh sigmoid it m j D C) as (Fg & _). rewrite Eops in Fg. inversion Fg as [|? j0 ? g' O0 _ X1 X2]; subst.
  destruct O0 as (ty & A & Ty & Nm & _ & Fo). rewrite (at_fun _ _ _ _ A Q0) in *.
  change (exported_type (str "QUANTIZE")) with (str "QUANTIZE") in *. rewrite Eo in Fo. inversion Fo as [|? u ? us Nu Nus Y1 Y2]; subst. inversion Nus; subst.
  destruct Nu as (t' & At' & _ & _ & _ & _ & Pu & _). rewrite (at_fun _ _ _ _ At' At) in Pu. destruct (Pu Un) as (Us & Uz).
  unfold seq_init, to_seq in L. cbn [jt_input jt_output jt_graph jt_engine] in L. rewrite <- X2 in L.
  destruct (py_index (map _ (tn_input j)) 0) as [[i|]|]; cbn [rbind] in L; try discriminate;
    destruct (py_index (map _ (tn_output j)) 0) as [[u'|]|]; cbn [rbind] in L; try discriminate.
  rewrite py_hd in L. cbn [rbind] in L. rewrite Nm in L.
  change (get_engine te_builders (str "TFLITE")) with (Ok (build_layer te_builders)) in L. cbn [rbind mapM] in L.
  unfold build_layer at 1 in L. rewrite Ty in L. change (build_layer_kind (str "QUANTIZE")) with (Ok KQuantize) in L. cbn [rbind b_tflite te_builders] in L.
  unfold te_quantize in L at 1. rewrite <- Y2 in L. rewrite py_hd in L. cbn [rbind] in L.
  destruct (parse_dtype (tj_dtype u)) as [d|]; cbn [rbind] in L; [|discriminate].
  destruct (mapM (build_layer te_builders) g') as [ls|]; cbn [rbind] in L; [|discriminate].
  injection L as <-. unfold seq_infer. cbn [sn_quant sn_layers]. change (contains (str "QUANT") (upper (str "QUANTIZE"))) with true. cbv iota.
  cbn [run_layers]. rewrite Us. reflexivity.
Qed.
