(** C92: dense networks quantized in floating point and run by the engine in binary64: end-to-end error. The vocabulary (tame data,
    layers, saturated network, bound, conditions on the file) is in FloatPipe.v. *)
From Coq Require Import String.
From Verif Require Import Base BaseProofs DtypeModel DtypeProofs QuantModel QuantProofs LutModel LutProofs FcModel FcProofs FcLayer
  EngineModel EngineProofs DistModel DistProofs BuildModel PipeModel PropCore PropFc PropEngine PropDist PropNodeLut PipeSpec PipeProofs
  FloatModel FloatProofs FloatQuant PropFloat FloatFcModel PropFloatFc FloatEngineModel FloatDistModel FloatDist PropFloatDist PropFloatNet
  FloatPipeModel FloatPipe.
From Coq Require Import Lqa Qminmax.
Open Scope Z_scope.
Open Scope list_scope.

(** A configuration, a network and calibration rows the theorems speak about; codes lie in [-2^k, 2^k]. *)
Record ready_f (f1 f2 : fmt) (k : Z) (c : qcfg) (ls : list flyr) (data : list (list Q)) (n : nat) : Prop := {
  rf_fmt : ieee f1 /\ ieee f2;
  rf_k : 0 <= k <= 17 /\ k + 6 <= bits f1 f2;
  rf_in : exists q, parse_dtype (c_quantize c) = Ok q /\ narrow q /\ codes_fit q k;
  rf_pos : (0 < n)%nat;
  rf_shape : shaped n (map fd_layer (fdenses ls));
  rf_cfg : Forall (fgood c k) (fdenses ls);
  rf_data : tame f1 f2 k (concat data);
  rf_net : tame_net f1 f2 k (fdenses ls) data }.
(** the first operator of a file, its last one, those after the first *)
Definition no_op : jop fbody := mkjop [] [] (mkfb [] []).
Definition first_op (j : jnet fbody) : jop fbody := hd no_op (jt_graph j).
Definition last_op (j : jnet fbody) : jop fbody := last (jt_graph j) no_op.
Definition layer_ops (j : jnet fbody) : list (jop fbody) := tl (jt_graph j).

Lemma built f1 f2 k c ls data n : ready_f f1 f2 k c ls data n ->
  exists s z q i ops out po, parse_dtype (grepr q) = Ok q /\ proper (mkpar s z q) k /\ i = fnode_of (s, z) q PNone /\
    fpipe_build f1 f2 c ls data = Ok (mkjnet (str "tflite") (mkjop (str "QUANTIZE") (str "QUANTIZE") (mkfb [] [i]) :: ops ++
      [mkjop (str "DEQUANTIZE") (str "DEQUANTIZE") (mkfb [out] [])]) [Some (mkjnode None None)] [Some (mkjnode None None)]) /\
    node_is out po /\ proper po k /\ length ops = op_count (map fd_layer (fdenses ls)) /\
    (forall x, In x (concat data) -> (Qabs (clip (mkpar s z q) x - x) <= s * ((1#2) + two_to (k + 4 - bits f1 f2) + two_to (k - 47)))%Q) /\
    forall L eta, Forall (act_ok L eta) (fdenses ls) -> Forall ffc_ok ops ->
      exists F B, steps (mkpar s z q) n ops po (out_width n (fdenses ls)) F B /\ (forall v, F v = sat_net (fdenses ls) ops v) /\
        (forall e, B e = fbound (bits f1 f2) k c L eta (fdenses ls) ops n e).
Proof.
  intros [(I1 & I2) (K & KB) (q & Pq & N & C) N0 Sh G T TN].
  destruct (tame_cal _ _ _ _ T) as (d & E). destruct (calibrated f1 f2 k q _ d I1 I2 K KB N C T E) as (s & z & E2 & PR & CV).
  pose proof (parse_grepr _ _ Pq) as Pg.
  destruct (layers_steps f1 f2 c k I1 I2 K KB ls n (fnode_of (s, z) q PNone) data (mkpar s z q) Sh G TN (fnode_is s z q PNone Pg) PR)
    as (ops & out & po & PL & No & Po & CNT & HL).
  exists s, z, q, (fnode_of (s, z) q PNone), ops, out, po. split; [exact Pg|]. split; [exact PR|]. split; [reflexivity|].
  split; [|split; [exact No|split; [exact Po|split; [exact CNT|split; [exact CV|exact HL]]]]].
  unfold fpipe_build, fpipe_input. rewrite Pq. cbn [rbind]. rewrite E. cbn [rbind]. rewrite E2. cbn [rbind]. cbv zeta. cbn [snd fst]. rewrite PL. cbn [rbind fst snd]. reflexivity.
Qed.

(** Quantizing such a network always succeeds; the graph is a QUANTIZE operator, one or two operators per layer, DEQUANTIZE. *)
Theorem C92_build_total : forall f1 f2 k c ls data n, ready_f f1 f2 k c ls data n ->
  exists j ops, fpipe_build f1 f2 c ls data = Ok j /\ jt_graph j = first_op j :: ops ++ [last_op j] /\
    jo_type (first_op j) = str "QUANTIZE" /\ jo_type (last_op j) = str "DEQUANTIZE" /\ length ops = op_count (map fd_layer (fdenses ls)).
Proof.
  intros f1 f2 k c ls data n R. destruct (built _ _ _ _ _ _ _ R) as (s & z & q & i & ops & out & po & _ & _ & _ & E & _ & _ & CNT & _).
  eexists _, ops. split; [exact E|]. unfold last_op. cbn [jt_graph first_op hd]. rewrite app_comm_cons, last_last. repeat split. exact CNT.
Qed.

Lemma sat_net_more ls : forall g v x, length g = op_count (map fd_layer ls) -> sat_net ls (g ++ x) v = sat_net ls g v.
Proof.
  induction ls as [|l ls IH]; intros g v x Lg; [destruct g; reflexivity|].
  unfold op_count in Lg. cbn [map fold_right] in Lg. fold (op_count (map fd_layer ls)) in Lg.
  destruct g as [|o g]; [destruct (is_table (fd_layer l)); discriminate|]. cbn [app sat_net]. destruct (is_table (fd_layer l)).
  - destruct g as [|a g]; [discriminate|]. cbn [app]. apply IH. cbn in Lg. lia.
  - apply IH. cbn in Lg. lia.
Qed.
Lemma fbound_more b k c L eta ls : forall g n e x, length g = op_count (map fd_layer ls) -> fbound b k c L eta ls (g ++ x) n e = fbound b k c L eta ls g n e.
Proof.
  induction ls as [|l ls IH]; intros g n e x Lg; [destruct g; reflexivity|].
  unfold op_count in Lg. cbn [map fold_right] in Lg. fold (op_count (map fd_layer ls)) in Lg.
  destruct g as [|o g]; [destruct (is_table (fd_layer l)); discriminate|]. cbn [app fbound]. destruct (is_table (fd_layer l)).
  - destruct g as [|a g]; [discriminate|]. cbn [app]. apply IH. cbn in Lg. lia.
  - apply IH. cbn in Lg. lia.
Qed.
(** What the outputs [y] of the engine on an input [x] are: doubles, one per output neuron, each within [e] of [z]. *)
Definition doubles_near (e : Q) (y : list f64) (z : list Q) (w : nat) : Prop :=
  length y = w /\ forall t, (t < w)%nat -> exists r, nth t y NaN = Fin r /\ (Qabs (r - nth t z 0) <= e)%Q.
(** The bound starts from half an input step (and the rounding of one double division), ends with the rounding of the final multiplication. *)
Definition total_bound (b k : Z) (c : qcfg) (L eta : fdense -> Q) (ls : list fdense) (j : jnet fbody) (n : nat) : Q :=
  (fbound b k c L eta ls (layer_ops j) n (p_s (out_par (first_op j)) * ((1#2) + two_to (k - 49))) + p_s (in_par (last_op j) 0) * two_to (k - 52))%Q.

(** The file loads in the engine, runs every batch in binary64, and every output is within [total_bound] of the real network that
    saturates where the file's nodes do. *)
Theorem C92_network_error : forall f1 f2 k c ls data n L eta j, ready_f f1 f2 k c ls data n -> fpipe_build f1 f2 c ls data = Ok j ->
  Forall (act_ok L eta) (fdenses ls) -> Forall ffc_ok (layer_ops j) ->
  forall X, X <> [] -> (forall x, In x X -> length x = n) ->
  exists Y, fe_execute j (map (map Fin) X) = Ok (GF Y) /\
  Forall2 (fun x y => doubles_near (total_bound (bits f1 f2) k c L eta (fdenses ls) j n) y
             (sat_net (fdenses ls) (layer_ops j) (map (clip (out_par (first_op j))) x)) (out_width n (fdenses ls))) X Y.
Proof.
  intros f1 f2 k c ls data n L eta j R EJ A OK X NE LX.
  destruct (built _ _ _ _ _ _ _ R) as (s & z & q & i & ops & out & po & Pg & PR & Ei & E & No & Pro & CNT & _ & HL).
  rewrite E in EJ. match type of EJ with Ok ?a = Ok j => assert (Ej : j = a) by congruence end. clear EJ E.
  set (qop := mkjop (str "QUANTIZE") (str "QUANTIZE") (mkfb [] [i])) in *. set (dop := mkjop (str "DEQUANTIZE") (str "DEQUANTIZE") (mkfb [out] [])) in *.
  assert (Gr : jt_graph j = qop :: ops ++ [dop]) by (rewrite Ej; reflexivity).
  assert (EO : layer_ops j = ops ++ [dop]) by (unfold layer_ops; rewrite Gr; reflexivity).
  assert (EF1 : first_op j = qop) by (unfold first_op; rewrite Gr; reflexivity).
  assert (EL : last_op j = dop) by (unfold last_op; rewrite Gr, app_comm_cons, last_last; reflexivity).
  assert (Ni : node_is i (mkpar s z q)) by (rewrite Ei; apply fnode_is; exact Pg).
  assert (EP : out_par qop = mkpar s z q) by (apply par_is; exact Ni).
  assert (EP2 : in_par dop 0 = po) by (apply par_is; exact No).
  rewrite EO in OK. apply Forall_app_inv in OK as [OK _].
  destruct (HL L eta A OK) as (F & B & ST & HF & HB).
  destruct R as [_ (K & _) _ N0 _ _ _ _].
  destruct PR as (Up & _ & _). destruct Pro as (Upo & _ & _).
  destruct (file_error j qop i [] ops dop out [] (mkpar s z q) k n po k (out_width n (fdenses ls)) F B X) as (Y & EY & FY).
  - rewrite Ej. vm_compute. reflexivity.
  - exact Gr.
  - rewrite Ej. cbn [jt_input jt_output hd_error]. eexists _, _. split; reflexivity.
  - vm_compute. reflexivity.
  - vm_compute. reflexivity.
  - reflexivity.
  - exact Ni.
  - exact Up.
  - exact (steps_run _ _ _ _ _ _ _ ST N0).
  - vm_compute. reflexivity.
  - reflexivity.
  - exact No.
  - exact Upo.
  - exact N0.
  - exact NE.
  - exact LX.
  - exists Y. split; [exact EY|]. clear EY NE LX. induction FY as [|x y X' Y' (Ly & H) _ IH]; constructor; [|exact IH].
    split; [exact Ly|]. intros t Ht. destruct (H t Ht) as (r & Er & Br). exists r. split; [exact Er|].
    unfold total_bound. rewrite EO, EF1, EL, EP, EP2. rewrite (sat_net_more (fdenses ls) ops _ [dop] CNT), (fbound_more _ _ _ _ _ (fdenses ls) ops n _ [dop] CNT).
    rewrite <- HF, <- HB. exact Br.
Qed.

(** The input node covers the calibration rows up to half a step and the rounding of the calibration arithmetic. *)
Theorem C92_calibration_rows_covered : forall f1 f2 k c ls data n j, ready_f f1 f2 k c ls data n -> fpipe_build f1 f2 c ls data = Ok j ->
  let p := out_par (first_op j) in
  forall row x, In row data -> In x row -> (Qabs (clip p x - x) <= p_s p * ((1#2) + two_to (k + 4 - bits f1 f2) + two_to (k - 47)))%Q.
Proof.
  intros f1 f2 k c ls data n j R EJ p row x Hr Hx.
  destruct (built _ _ _ _ _ _ _ R) as (s & z & q & i & ops & out & po & Pg & PR & Ei & E & _ & _ & _ & CV & _).
  rewrite E in EJ. match type of EJ with Ok ?a = Ok j => assert (Ej : j = a) by congruence end.
  assert (EP : p = mkpar s z q) by (unfold p; rewrite Ej; apply par_is; rewrite Ei; apply fnode_is; exact Pg).
  rewrite EP. cbn [p_s]. apply CV. apply in_concat. now exists row.
Qed.

(** ** The network without saturation *)
(** Keras's fused activations *)
Definition rect (l : kdense) (a : Q) : Q :=
  if chars_eqb (upper (kd_act l)) (str "RELU") then Qmax 0 a
  else if chars_eqb (upper (kd_act l)) (str "RELU6") then Qmin 6 (Qmax 0 a) else a.
Definition real_layer (l : kdense) (v : list Q) : list Q :=
  if is_table l then map (kd_fn l) (affine l v) else map (rect l) (affine l v).
Definition real_net (ls : list fdense) (v : list Q) : list Q := fold_left (fun v l => real_layer (fd_layer l) v) ls v.
(** no node of the file saturates on the way of [v] (a node after a fused ReLU does the rectification) *)
Fixpoint unsaturated (ls : list fdense) (g : list (jop fbody)) (v : list Q) : Prop :=
  match ls, g with
  | l :: ls', op :: g' =>
      (forall a, In a (affine (fd_layer l) v) -> (clip (out_par op) a == rect (fd_layer l) a)%Q) /\
      if is_table (fd_layer l) then
        match g' with
        | act :: g'' => (forall a, In a (affine (fd_layer l) v) -> (clip (out_par act) (kd_fn (fd_layer l) a) == kd_fn (fd_layer l) a)%Q) /\
            unsaturated ls' g'' (real_layer (fd_layer l) v)
        | [] => False
        end
      else unsaturated ls' g' (real_layer (fd_layer l) v)
  | [], _ => True
  | _ :: _, [] => False
  end.
Lemma clip_comp p a b : (a == b)%Q -> (clip p a == clip p b)%Q.
Proof. intros H. unfold clip. apply Q.max_compat; [reflexivity|]. apply Q.min_compat; [reflexivity|exact H]. Qed.
Lemma F2_map_ext {A} (R : A -> A -> Prop) (f g : A -> A) x y : Forall2 R x y -> (forall a b, In b y -> R a b -> R (f a) (g b)) -> Forall2 R (map f x) (map g y).
Proof. induction 1 as [|a b x y Hab _ IH]; intros H; cbn [map]; constructor; [apply H; [now left|exact Hab]|]. apply IH. intros a' b' Hb. apply H. now right. Qed.
Lemma affine_comp l v w : Forall2 Qeq v w -> Forall2 Qeq (affine l v) (affine l w).
Proof.
  intros H. unfold affine. induction (seq 0 (kd_units l)) as [|j r IH]; cbn [map]; constructor; [|exact IH].
  unfold PropFc.dense. rewrite (F2_length _ _ _ H). apply Qplus_comp; [|reflexivity]. unfold sumQ_upto, sum_upto. 
  pose proof (F2_length _ _ _ H) as Le.
  assert (G : forall s, (forall i, In i s -> (i < length w)%nat) -> (fold_right Qplus 0 (map (fun i => nth i v 0 * nth i (column j (kd_kernel l)) 0) s) ==
    fold_right Qplus 0 (map (fun i => nth i w 0 * nth i (column j (kd_kernel l)) 0) s))%Q).
  { induction s as [|i s IHs]; intros Hs; cbn [map fold_right]; [reflexivity|]. apply Qplus_comp; [|apply IHs; intros; apply Hs; now right].
    apply Qmult_comp; [|reflexivity]. apply (F2_nth Qeq v w 0%Q 0%Q H). apply Hs. now left. }
  apply G. intros i Hi. apply in_seq in Hi. lia.
Qed.
(** Where nothing saturates, the saturating network is the network. *)
Theorem C92_unsaturated : forall ls g v w, (forall l a b, In l ls -> (a == b)%Q -> (kd_fn (fd_layer l) a == kd_fn (fd_layer l) b)%Q) ->
  Forall2 Qeq v w -> unsaturated ls g w -> Forall2 Qeq (sat_net ls g v) (real_net ls w).
Proof.
  induction ls as [|l ls IH]; intros g v w HC E U; [exact E|].
  destruct g as [|op g]; [destruct U|]. cbn [unsaturated] in U. destruct U as (U1 & U2). unfold real_net. cbn [sat_net fold_left]. fold (real_net ls (real_layer (fd_layer l) w)).
  pose proof (affine_comp (fd_layer l) v w E) as EA.
  assert (E1 : Forall2 Qeq (map (clip (out_par op)) (affine (fd_layer l) v)) (map (rect (fd_layer l)) (affine (fd_layer l) w))).
  { apply F2_map_ext; [exact EA|]. intros a b Hb Hab. rewrite (clip_comp _ _ _ Hab). now apply U1. }
  assert (HC' : forall l0 a b, In l0 ls -> (a == b)%Q -> (kd_fn (fd_layer l0) a == kd_fn (fd_layer l0) b)%Q) by (intros; apply HC; [now right|assumption]).
  unfold real_layer in *. destruct (is_table (fd_layer l)) eqn:IT.
  - destruct g as [|act g]; [destruct U2|]. destruct U2 as (U2 & U3). apply IH; [exact HC'| |exact U3].
    assert (RI : forall a, rect (fd_layer l) a = a).
    { intros a. unfold rect. unfold is_table in IT. apply orb_prop in IT as [IT|IT]; apply chars_eqb_eq in IT; rewrite IT; reflexivity. }
    rewrite map_map. apply F2_map_ext; [exact EA|]. intros a b Hb Hab.
    assert (X : (clip (out_par op) a == b)%Q) by (rewrite (clip_comp _ _ _ Hab), (U1 b Hb), RI; reflexivity).
    rewrite (clip_comp (out_par act) _ _ (HC l _ _ (or_introl eq_refl) X)). now apply U2.
  - apply IH; [exact HC'|exact E1|exact U2].
Qed.
(** A value between the ends of a node's range does not saturate. *)
Theorem C92_in_range : forall p a, (value p (gmin (p_d p)) <= a <= value p (gmax (p_d p)))%Q -> (clip p a == a)%Q.
Proof.
  intros p a (H1 & H2). unfold clip. destruct (Q.min_spec (value p (gmax (p_d p))) a) as [[? E]|[? E]]; rewrite E; [lra|]. apply Q.max_r. lra.
Qed.
(** A node whose zero point is its lowest code rectifies: everything below its range becomes 0. *)
Theorem C92_rectifies : forall p a, p_z p = gmin (p_d p) -> (0 < p_s p)%Q -> (a <= value p (gmax (p_d p)))%Q -> (clip p a == Qmax 0 a)%Q.
Proof.
  intros p a Z P H. unfold clip. assert (E : (value p (gmin (p_d p)) == 0)%Q) by (unfold value; rewrite Z, Z.sub_diag; change (inject_Z 0) with 0%Q; ring).
  destruct (Q.min_spec (value p (gmax (p_d p))) a) as [[? E2]|[? E2]]; [lra|]. apply Q.max_compat; [exact E|exact E2].
Qed.
(** The error against the network itself, for inputs on whose way nothing saturates. *)
Theorem C92_float_network_error : forall f1 f2 k c ls data n L eta j, ready_f f1 f2 k c ls data n -> fpipe_build f1 f2 c ls data = Ok j ->
  Forall (act_ok L eta) (fdenses ls) -> (forall l a b, In l (fdenses ls) -> (a == b)%Q -> (kd_fn (fd_layer l) a == kd_fn (fd_layer l) b)%Q) ->
  Forall ffc_ok (layer_ops j) ->
  forall X, X <> [] -> (forall x, In x X -> length x = n /\ (forall v, In v x -> (clip (out_par (first_op j)) v == v)%Q) /\ unsaturated (fdenses ls) (layer_ops j) x) ->
  exists Y, fe_execute j (map (map Fin) X) = Ok (GF Y) /\
  Forall2 (fun x y => doubles_near (total_bound (bits f1 f2) k c L eta (fdenses ls) j n) y (real_net (fdenses ls) x) (out_width n (fdenses ls))) X Y.
Proof.
  intros f1 f2 k c ls data n L eta j R EJ A HC OK X NE HX.
  destruct (C92_network_error f1 f2 k c ls data n L eta j R EJ A OK X NE (fun x Hx => proj1 (HX x Hx))) as (Y & EY & FY).
  exists Y. split; [exact EY|]. clear EY NE. induction FY as [|x y X Y (Ly & H) _ IH]; constructor; [|apply IH; intros; apply HX; now right].
  destruct (HX x (or_introl eq_refl)) as (_ & HI & U).
  assert (E : Forall2 Qeq (map (clip (out_par (first_op j))) x) x).
  { clear - HI. induction x as [|a x IH]; cbn [map]; constructor; [apply HI; now left|]. apply IH. intros; apply HI. now right. }
  pose proof (C92_unsaturated _ _ _ _ HC E U) as Q1.
  split; [exact Ly|]. intros t Ht. destruct (H t Ht) as (r & Er & Br). exists r. split; [exact Er|].
  destruct (Nat.lt_ge_cases t (length (real_net (fdenses ls) x))) as [Lt|Ge].
  - pose proof (F2_nth Qeq _ _ 0%Q 0%Q Q1 t Lt) as Q2. rewrite <- Q2. exact Br.
  - rewrite (nth_overflow (real_net _ _)) by exact Ge. rewrite (nth_overflow (sat_net _ _ _)) in Br by (rewrite (F2_length _ _ _ Q1); exact Ge). exact Br.
Qed.

(** ** Example: two layers, the first with a table, default configuration, data in binary32 *)
Definition numberb (f : fmt) (x : Q) : bool :=
  let k := Z.log2 (Zpos (Qden x)) in
  (Z.abs (Qnum x) <? 2 ^ f_p f) && Qeq_bool x (inject_Z (Qnum x) * two_to (- k)) && (f_emin f <=? - k).
Lemma numberb_ok f x : ieee f -> numberb f x = true -> number f x.
Proof.
  intros I H. unfold numberb in H. cbv zeta in H. set (k := Z.log2 (Z.pos (Qden x))) in *. apply andb_prop in H as [H H3]. apply andb_prop in H as [H1 H2].
  apply Z.ltb_lt in H1. apply Qeq_bool_eq in H2. apply Z.leb_le in H3. exists (Qnum x), (- k). pose proof (Z.log2_nonneg (Z.pos (Qden x))) as K0. fold k in K0.
  split; [exact H1|]. split; [|exact H2]. split; [exact H3|]. apply Z.le_trans with 0; [lia|]. destruct I as [-> | ->]; discriminate.
Qed.
Definition tameb (f1 f2 : fmt) (k : Z) (a : list Q) : bool :=
  existsb (fun x => existsb (fun y => negb (Qle_bool y x)) a) a && forallb (fun x => numberb f1 x && numberb f2 x) a &&
  existsb (fun x => Qle_bool (two_to (f_emin f2 + f_p f2 + k + 1)) (Qabs x)) a &&
  forallb (fun x => Qle_bool (Qabs x) (two_to (f_emax f1 - k - 4)) && Qle_bool (Qabs x) (two_to (f_emax f2 - k - 4))) a.
Lemma tameb_ok f1 f2 k a : ieee f1 -> ieee f2 -> tameb f1 f2 k a = true -> tame f1 f2 k a.
Proof.
  intros I1 I2 H. unfold tameb in H. apply andb_prop in H as [H H4]. apply andb_prop in H as [H H3]. apply andb_prop in H as [H1 H2].
  apply existsb_exists in H1 as (x & Hx & H1). apply existsb_exists in H1 as (y & Hy & H1). apply existsb_exists in H3 as (u & Hu & H3).
  rewrite forallb_forall in H2, H4. constructor.
  - exists x, y. split; [exact Hx|]. split; [exact Hy|]. apply Qnot_le_lt. intros C. apply Qle_bool_iff in C. rewrite C in H1. discriminate H1.
  - intros v Hv. specialize (H2 v Hv). apply andb_prop in H2 as [A B]. split; now apply numberb_ok.
  - exists u. split; [exact Hu|]. now apply Qle_bool_iff.
  - intros v Hv. specialize (H4 v Hv). apply andb_prop in H4 as [A B]. split; now apply Qle_bool_iff.
Qed.
(** Layers without fused ReLU: tame pre-activations are enough. *)
Theorem C92_plain_range : forall f1 f2 k act a, ieee f1 -> ieee f2 -> 0 <= k <= 17 -> fused_of act = FNone -> tame f1 f2 k a -> fits_cut f1 f2 k act a.
Proof.
  intros f1 f2 k act a I1 I2 K FU T. destruct (tame_cal _ _ _ _ T) as (d & E).
  destruct (tame_range f1 f2 k a d I1 I2 K T E) as (lo & hi & R & _ & _ & M1 & M2 & M3 & M4 & B1 & _ & B3 & B4).
  exists d, d, lo, hi. split; [exact E|]. split; [rewrite FU; reflexivity|]. split; [exact R|]. constructor; auto.
Qed.
Definition ex_k1 : kdense := mkkd (str "d1") 2 [[1#2; -1#4]; [1#4; 5#8]]%Q (Some [1#8; 0]%Q) (str "tanh") ex_relu.
Definition ex_k2 : kdense := mkkd (str "d2") 1 [[1#1]; [-1#2]]%Q None (str "linear") (fun x => x).
Definition ex_f (l : kdense) : fdense := mkfd l ex_g (map (affine l)) (map (map (kd_fn l))).
Definition ex_layers : list flyr := [FDense (ex_f ex_k1); FSkip; FDense (ex_f ex_k2)].
Definition ex_rows : list (list Q) := [[1; -1]; [-1#2; 1#2]; [3#4; 1]; [0; -1#4]]%Q.
Lemma ex_default_good : good_cfg dense_default int8 int8 int32.
Proof.
  constructor; try (vm_compute; reflexivity).
  - split; [|split; vm_compute; [reflexivity|discriminate]]. split; [|split]; vm_compute; discriminate.
  - split; [|split; vm_compute; [reflexivity|discriminate]]. split; [|split]; vm_compute; discriminate.
  - split; [|split]; vm_compute; discriminate.
Qed.
Lemma ex_codes : codes_fit int8 7.
Proof. split; [lia|]. split; vm_compute; discriminate. Qed.
Example C92_example_ready : ready_f binary32 binary64 7 cfg_default ex_layers ex_rows 2.
Proof.
  assert (I1 : ieee binary32) by (left; reflexivity). assert (I2 : ieee binary64) by (right; reflexivity).
  constructor.
  - split; assumption.
  - split; [lia|vm_compute; discriminate].
  - exists int8. split; [vm_compute; reflexivity|]. split; [exact (gc_n _ _ _ _ ex_default_good)|exact ex_codes].
  - lia.
  - change (map fd_layer (fdenses ex_layers)) with [ex_k1; ex_k2]. cbn [shaped]. change (kd_units ex_k1) with 2%nat. change (kd_units ex_k2) with 1%nat.
    split; [lia|]. split; [lia|]. split; [reflexivity|]. split; [intros r [<-|[<-|[]]]; reflexivity|]. split; [intros b E; change (Some [1#8; 0]%Q = Some b) in E; injection E as <-; reflexivity|].
    split; [lia|]. split; [lia|]. split; [reflexivity|]. split; [intros r [<-|[<-|[]]]; reflexivity|]. split; [intros b E; discriminate E|exact Logic.I].
  - cbn [fdenses ex_layers]. constructor; [|constructor; [|constructor]].
    + split; [right; left; vm_compute; reflexivity|]. exists dense_default, int8, int8, int32. split; [reflexivity|]. split; [exact ex_default_good|]. split; exact ex_codes.
    + split; [left; vm_compute; reflexivity|]. exists dense_default, int8, int8, int32. split; [reflexivity|]. split; [exact ex_default_good|]. split; exact ex_codes.
  - apply tameb_ok; [exact I1|exact I2|]. vm_compute. reflexivity.
  - cbn [fdenses ex_layers tame_net]. cbv zeta. split; [apply tameb_ok; [exact I1|exact I2|vm_compute; reflexivity]|].
    split; [apply C92_plain_range; [exact I1|exact I2|lia|vm_compute; reflexivity|apply tameb_ok; [exact I1|exact I2|vm_compute; reflexivity]]|].
    change (is_table (fd_layer (ex_f ex_k1))) with true. change (is_table (fd_layer (ex_f ex_k2))) with false. cbv iota.
    split; [apply tameb_ok; [exact I1|exact I2|vm_compute; reflexivity]|].
    split; [apply tameb_ok; [exact I1|exact I2|vm_compute; reflexivity]|].
    split; [apply C92_plain_range; [exact I1|exact I2|lia|vm_compute; reflexivity|apply tameb_ok; [exact I1|exact I2|vm_compute; reflexivity]]|exact Logic.I].
Qed.
Definition ex_j : jnet fbody := Eval vm_compute in
  match fpipe_build binary32 binary64 cfg_default ex_layers ex_rows with Ok j => j | Err _ => mkjnet [] [] [] [] end.
(** a checker for the conditions on a fully connected operator *)
Definition ffc_okb (op : jop fbody) : bool :=
  match map fn_tensor (skipn 1 (fb_in (jo_body op))) with
  | [PMat W; PVec bv] =>
    let si := p_s (in_par op 0) in let sk := p_s (in_par op 1) in let so := p_s (out_par op) in
    let di := p_d (in_par op 0) in let dk := p_d (in_par op 1) in let db := p_d (in_par op 2) in
    Qle_bool (two_to (-1022)) (si * sk) && Qle_bool (si * sk) (two_to 1022) && Qle_bool (1000001 # 1000000000000) (si * sk / so) &&
    negb (Qle_bool (inject_Z (2 ^ 30 - 1)) (si * sk / so)) &&
    forallb (fun v => (gmin db <? v) && (v <? gmax db) &&
      (Z.of_nat (length (hd [] W)) * ((gmax di - gmin di) * Z.max (gmax dk) (- gmin dk)) + Z.abs v <=? 2 ^ 31)) bv
  | _ => true
  end.
Lemma ffc_okb_ok op : ffc_okb op = true -> ffc_ok op.
Proof.
  unfold ffc_okb, ffc_ok. intros H W bv E. rewrite E in H. cbv zeta in H |- *. 
  apply andb_prop in H as [H H5]. apply andb_prop in H as [H H4]. apply andb_prop in H as [H H3]. apply andb_prop in H as [H1 H2].
  apply Qle_bool_iff in H1, H2, H3. rewrite forallb_forall in H5.
  split; [split; assumption|]. split; [exact H3|]. split.
  - apply Qnot_le_lt. intros C. apply Qle_bool_iff in C. rewrite C in H4. discriminate H4.
  - intros v Hv. specialize (H5 v Hv). apply andb_prop in H5 as [H5 H6]. apply andb_prop in H5 as [H7 H8]. apply Z.ltb_lt in H7, H8. apply Z.leb_le in H6. auto.
Qed.
Definition ex_L : fdense -> Q := fun _ => 1%Q.
Definition ex_eta : fdense -> Q := fun _ => 0%Q.
(** The network of the example: exported, accepted, run. On [1; -1] and [3/4; 1] the real network gives 0.375 and 0.53125. *)
Example C92_example : fpipe_build binary32 binary64 cfg_default ex_layers ex_rows = Ok ex_j /\
  Forall (act_ok ex_L ex_eta) (fdenses ex_layers) /\ Forall ffc_ok (layer_ops ex_j) /\
  (total_bound (bits binary32 binary64) 7 cfg_default ex_L ex_eta (fdenses ex_layers) ex_j 2 <= 6 # 100)%Q /\
  fe_execute ex_j [[Fin 1; Fin (-1)]; [Fin (3#4); Fin 1]]%Q = Ok (GF [[Fin (841113459817725 # 2251799813685248)]; [Fin (4742025489995993 # 9007199254740992)]]).
Proof.
  split; [vm_cast_no_check (eq_refl (Ok ex_j))|]. split; [|split; [|split]].
  - constructor; [|constructor; [|constructor]]; intros IT; [|discriminate IT].
    split; [|split; [exact ex_relu_lip|discriminate]]. intros x. exists (ex_relu x). split; [reflexivity|].
    change (kd_fn (fd_layer (ex_f ex_k1)) x) with (ex_relu x). setoid_replace (ex_relu x - ex_relu x)%Q with 0%Q by ring. discriminate.
  - apply Forall_forall. intros op Ho. apply ffc_okb_ok.
    assert (H : forallb ffc_okb (layer_ops ex_j) = true) by (vm_compute; reflexivity). rewrite forallb_forall in H. now apply H.
  - apply Qle_bool_iff. vm_compute. reflexivity.
  - vm_compute. reflexivity.
Qed.
