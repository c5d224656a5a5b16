(** Properties C71, C72: the TFLite to JSON converter and running its output. *)
From Verif Require Import Base BaseProofs DtypeModel QuantModel QuantProofs DtypeProofs LutModel LutProofs FcModel FcLayer EngineModel EngineProofs
  PipeModel TfliteModel PropCore PropEngine.
From Coq Require Import Lqa.
Open Scope Z_scope.
Open Scope list_scope.

(** ** Specification *)
(** Element [k] of a table. *)
Definition at_ {A} (l : list A) (k : Z) (a : A) : Prop := 0 <= k /\ nth_error l (Z.to_nat k) = Some a.
(** A flatbuffer vector with no more than one element. *)
Definition at_most_one {A} (v : option (list A)) : Prop := match v with Some (_ :: _ :: _) => False | _ => True end.
(** The vector says nothing: absent, empty, or the single element 0. *)
Definition no_scale (v : option (list Q)) : Prop := match v with None | Some [] => True | Some [x] => (x == 0)%Q | _ => False end.
Definition no_zp (v : option (list Z)) : Prop := match v with None | Some [] => True | Some [x] => x = 0 | _ => False end.
(** Per-tensor quantization with scale [s] <> 0 and zero point [z]. *)
Definition per_tensor (t : ttensor) (s : Q) (z : Z) : Prop :=
  exists q, tt_quant t = Some q /\ tq_scale q = Some [s] /\ ~ (s == 0)%Q /\
    (tq_zp q = Some [z] \/ (z = 0 /\ (tq_zp q = None \/ tq_zp q = Some []))).
Definition unquantized (t : ttensor) : Prop :=
  tt_quant t = None \/ exists q, tt_quant t = Some q /\ no_scale (tq_scale q) /\ no_zp (tq_zp q).
(** The tensor's name in the file. *)
Definition called (t : ttensor) (n : chars) : Prop := match tt_name t with Some [] => n = str "?" | Some m => n = m | None => False end.
(** The interpreter lists every tensor of the model under its own position, and no name twice. *)
Definition describes (it : tinterp) (m : tmodel) : Prop :=
  NoDup (map fst (ti_details it)) /\
  forall k t n, at_ (tm_tensors m) k t -> called t n -> In (n, k) (ti_details it).
(** What the converter needs of a tensor. *)
Definition convertible (it : tinterp) (t : ttensor) : Prop :=
  (exists n, called t n /\ (tt_stored t = true -> In n (map fst (ti_details it)))) /\
  (tt_stored t = false -> tt_shape t <> None) /\
  (forall q, tt_quant t = Some q -> at_most_one (tq_scale q) /\ at_most_one (tq_zp q)).
(** The JSON node [n] describes tensor [k]. *)
Definition node_of (it : tinterp) (m : tmodel) (k : Z) (n : tjnode) : Prop :=
  exists t, at_ (tm_tensors m) k t /\ called t (tj_name n) /\ tj_dtype n = tt_type t /\
    (tt_stored t = true -> tj_tensor n = Some (td_val (ti_get it k)) /\ tj_shape n = td_shape (ti_get it k)) /\
    (tt_stored t = false -> tj_tensor n = None /\ tt_shape t = Some (tj_shape n)) /\
    (unquantized t -> tj_scale n = None /\ tj_zp n = None) /\
    (forall q z, tt_quant t = Some q -> no_scale (tq_scale q) -> tq_zp q = Some [z] -> z <> 0 -> tj_scale n = Some 0%Q /\ tj_zp n = Some z) /\
    (forall s z, per_tensor t s z -> tj_scale n = Some s /\ tj_zp n = Some z).
(** Renaming of operator types. *)
Definition exported_type (ty : chars) : chars :=
  if chars_eqb ty (str "TANH") then str "TANHLUT" else if chars_eqb ty (str "LOGISTIC") then str "SIGMOIDLUT" else ty.
Definition is_lut_type (ty : chars) : Prop := ty = str "TANH" \/ ty = str "LOGISTIC".
Definition tensor_ok (it : tinterp) (m : tmodel) (k : Z) : Prop := exists t, at_ (tm_tensors m) k t /\ convertible it t.
Definition op_ok (it : tinterp) (m : tmodel) (op : toper) : Prop :=
  (exists ty, at_ (tm_codes m) (to_code op) ty /\ (is_lut_type ty -> to_in op <> [] /\ to_out op <> [])) /\
  Forall (tensor_ok it m) (to_in op) /\ Forall (tensor_ok it m) (to_out op).
(** The JSON operator [j] describes [op]. *)
Definition op_of (it : tinterp) (m : tmodel) (op : toper) (j : jop tjbody) : Prop :=
  exists ty, at_ (tm_codes m) (to_code op) ty /\ jo_type j = exported_type ty /\ jo_name j = exported_type ty /\
    Forall2 (node_of it m) (to_in op) (tb_in (jo_body j)) /\ Forall2 (node_of it m) (to_out op) (tb_out (jo_body j)).

(** ** Proof helpers *)
Lemma fb_at_ok {A} (l : list A) k a : fb_at l k = Ok a <-> at_ l k a.
Proof.
  unfold fb_at, at_. destruct (Z.ltb_spec k 0) as [H|H].
  - split; [discriminate|intros [? _]; lia].
  - destruct (nth_error l (Z.to_nat k)) as [x|]; split.
    + intros E. injection E as ->. auto.
    + intros [_ E]. injection E as ->. reflexivity.
    + discriminate.
    + intros [_ E]. discriminate.
Qed.
Lemma at_fun {A} (l : list A) k a b : at_ l k a -> at_ l k b -> a = b.
Proof. intros [_ H] [_ H']. rewrite H in H'. now injection H'. Qed.

Lemma name2idx_in l k i : name2idx l k = Some i -> In (k, i) l.
Proof.
  induction l as [|[n j] r IH]; cbn; [discriminate|]. destruct (name2idx r k) as [x|].
  - intros E. injection E as ->. right. now apply IH.
  - destruct (chars_eqb n k) eqn:E; [|discriminate]. intros H. injection H as ->. apply chars_eqb_eq in E. subst. now left.
Qed.
Lemma name2idx_some l k : In k (map fst l) <-> exists i, name2idx l k = Some i.
Proof.
  induction l as [|[n j] r IH]; cbn; [split; [tauto|intros (i & H); discriminate]|]. split.
  - intros [->|H].
    + destruct (name2idx r k) as [x|]; [eauto|]. assert (E : chars_eqb k k = true) by now apply chars_eqb_eq. rewrite E. eauto.
    + destruct (proj1 IH H) as (i & ->). eauto.
  - intros (i & H). destruct (name2idx r k) as [x|] eqn:E; [right; apply IH; eauto|].
    destruct (chars_eqb n k) eqn:E'; [|discriminate]. left. now apply chars_eqb_eq.
Qed.
Lemma name2idx_unique l k i : NoDup (map fst l) -> In (k, i) l -> name2idx l k = Some i.
Proof.
  intros N H. destruct (proj1 (name2idx_some l k)) as (j & E); [apply (in_map fst) in H; exact H|].
  rewrite E. apply name2idx_in in E. f_equal.
  clear - N H E. induction l as [|[n x] r IH]; [contradiction|]. cbn in N. inversion N as [|? ? Nn Nr]; subst.
  destruct H as [H|H], E as [E|E].
  - congruence.
  - injection H as <- <-. exfalso. apply Nn. apply (in_map fst) in E. exact E.
  - injection E as <- <-. exfalso. apply Nn. apply (in_map fst) in H. exact H.
  - now apply IH.
Qed.

Lemma node_quant_ok q : (exists r, node_quant q = Ok r) <->
  (forall x, q = Some x -> at_most_one (tq_scale x) /\ at_most_one (tq_zp x)).
Proof.
  destruct q as [[s z]|]; cbn.
  2:{ split; [intros _ x E; discriminate|intros _; eauto]. }
  assert (A : forall T (f : T -> bool) v, (exists r, array_or_0 f v = Ok r) <-> at_most_one v).
  { intros T f [[|x [|y r]]|]; cbn.
    - split; [trivial|intros _; eauto].
    - split; [trivial|intros _; eauto].
    - split; [intros (r' & E); discriminate|contradiction].
    - split; [trivial|intros _; eauto]. }
  split.
  - intros (r & E) x X. injection X as <-. cbn.
    destruct (array_or_0 _ s) as [a|] eqn:E1; cbn in E; [|discriminate].
    destruct (array_or_0 _ z) as [b|] eqn:E2; cbn in E; [|discriminate].
    split; [apply (A _ (fun x => Qeq_bool x 0)); eauto|apply (A _ (Z.eqb 0)); eauto].
  - intros H. destruct (H _ eq_refl) as [H1 H2]. cbn in H1, H2.
    apply (A _ (fun x => Qeq_bool x 0)) in H1 as (a & ->). apply (A _ (Z.eqb 0)) in H2 as (b & ->). cbn.
    destruct a, b; eauto.
Qed.
Lemma node_quant_none t : unquantized t -> node_quant (tt_quant t) = Ok (None, None).
Proof.
  intros [->|(q & -> & S0 & Z0)]; [reflexivity|]. cbn.
  assert (A : array_or_0 (fun x => Qeq_bool x 0) (tq_scale q) = Ok None).
  { destruct (tq_scale q) as [[|x [|y r]]|]; cbn in *; try reflexivity; [|contradiction]. now rewrite (proj2 (Qeq_bool_iff x 0) S0). }
  assert (B : array_or_0 (Z.eqb 0) (tq_zp q) = Ok None).
  { destruct (tq_zp q) as [[|x [|y r]]|]; cbn in *; try reflexivity; [|contradiction]. now rewrite Z0. }
  rewrite A, B. reflexivity.
Qed.
Lemma node_quant_some t s z : per_tensor t s z -> node_quant (tt_quant t) = Ok (Some s, Some z).
Proof.
  intros (q & -> & E & N & H). cbn. rewrite E. cbn.
  assert (Qeq_bool s 0 = false) as -> by (apply not_true_iff_false; now rewrite Qeq_bool_iff). cbn.
  destruct H as [->|[-> [->| ->]]]; cbn; try reflexivity. destruct z; reflexivity.
Qed.

Lemma build_node_ok it t : (exists n, build_from_node it t = Ok n) <-> convertible it t.
Proof.
  unfold build_from_node, convertible, called. destruct (tt_name t) as [nm|]; cbn [rbind].
  2:{ split; [intros (n & E); discriminate|intros ((n & [] & _) & _)]. }
  assert (E : exists n, (match nm with [] => Ok (str "?") | _ :: _ => Ok nm end) = Ok n /\ (match nm with [] => n = str "?" | _ => n = nm end)).
  { destruct nm; eauto. }
  destruct E as (n & E & Hn).
  assert (X : forall P : chars -> Prop, (exists n0, (match nm with [] => n0 = str "?" | _ => n0 = nm end) /\ P n0) <-> P n).
  { intros P. destruct nm; subst n; (split; [intros (n0 & -> & Hp); exact Hp|eauto]). }
  rewrite (X (fun n0 => tt_stored t = true -> In n0 (map fst (ti_details it)))).
  replace (match nm with [] => Ok (str "?") | _ :: _ => Ok nm end) with (@Ok chars n) by (symmetry; exact E). cbn [rbind].
  rewrite <- node_quant_ok.
  destruct (tt_stored t).
  - rewrite name2idx_some. destruct (name2idx (ti_details it) n) as [i|]; cbn [rbind].
    + destruct (node_quant (tt_quant t)) as [r|]; cbn [rbind].
      * split; [intros _|intros _; eauto]. split; [eauto|]. split; [discriminate|eauto].
      * split; [intros (? & Z0); discriminate|intros (_ & _ & r & Z0); discriminate].
    + split; [intros (? & Z0); discriminate|intros (H & _)]. destruct (H eq_refl) as (i & Hi). discriminate.
  - cbn [rbind]. destruct (node_quant (tt_quant t)) as [r|]; cbn [rbind].
    + destruct (tt_shape t) as [sh|]; cbn [rbind].
      * split; [intros _|intros _; eauto]. split; [discriminate|]. split; [discriminate|eauto].
      * split; [intros (? & Z0); discriminate|intros (_ & H & _)]. now destruct (H eq_refl).
    + split; [intros (? & Z0); discriminate|intros (_ & _ & r & Z0); discriminate].
Qed.
Lemma node_quant_zp t q z : tt_quant t = Some q -> no_scale (tq_scale q) -> tq_zp q = Some [z] -> z <> 0 -> node_quant (tt_quant t) = Ok (Some 0%Q, Some z).
Proof.
  intros E NS EZ NZ. rewrite E. unfold node_quant. rewrite EZ. cbn [array_or_0]. rewrite (proj2 (Z.eqb_neq 0 z)) by congruence.
  unfold no_scale in NS. destruct (tq_scale q) as [[|x [|y l]]|]; cbn [array_or_0]; try reflexivity; [|contradiction].
  rewrite (proj2 (Qeq_bool_iff x 0) NS). reflexivity.
Qed.
Lemma build_node_of it m k t n : describes it m -> at_ (tm_tensors m) k t -> build_from_node it t = Ok n -> node_of it m k n.
Proof.
  intros [Nd Ds] At B. unfold build_from_node in B.
  destruct (tt_name t) as [nm|] eqn:Nm; [|discriminate].
  set (nn := match nm with [] => str "?" | _ :: _ => nm end).
  assert (E : (match nm with [] => Ok (str "?") | _ :: _ => Ok nm end) = Ok nn) by (destruct nm; reflexivity).
  rewrite E in B. cbn [rbind] in B.
  assert (C : called t nn) by (unfold called, nn; rewrite Nm; destruct nm; reflexivity).
  pose proof (Ds k t nn At C) as In_. pose proof (name2idx_unique _ _ _ Nd In_) as U.
  exists t. split; [exact At|].
  destruct (tt_stored t) eqn:St.
  - rewrite U in B. cbn [rbind] in B. destruct (node_quant (tt_quant t)) as [[s z]|] eqn:NQ; cbn [rbind] in B; [|discriminate].
    injection B as <-. cbn. split; [exact C|]. split; [reflexivity|]. split; [auto|]. split; [discriminate|]. split.
    + intros Un. rewrite (node_quant_none t Un) in NQ. injection NQ as <- <-. auto.
    + split; [intros q z0 Eq NS EZ NZ; rewrite (node_quant_zp t q z0 Eq NS EZ NZ) in NQ; injection NQ as <- <-; auto|]. intros s0 z0 P. rewrite (node_quant_some t s0 z0 P) in NQ. injection NQ as <- <-. auto.
  - cbn [rbind] in B. destruct (node_quant (tt_quant t)) as [[s z]|] eqn:NQ; cbn [rbind] in B; [|discriminate].
    destruct (tt_shape t) as [sh|] eqn:Sh; cbn [rbind] in B; [|discriminate].
    injection B as <-. cbn. split; [exact C|]. split; [reflexivity|]. split; [discriminate|]. split; [auto|]. split.
    + intros Un. rewrite (node_quant_none t Un) in NQ. injection NQ as <- <-. auto.
    + split; [intros q z0 Eq NS EZ NZ; rewrite (node_quant_zp t q z0 Eq NS EZ NZ) in NQ; injection NQ as <- <-; auto|]. intros s0 z0 P. rewrite (node_quant_some t s0 z0 P) in NQ. injection NQ as <- <-. auto.
Qed.
Lemma mapM_total {A B} (f : A -> res B) l : (exists l', mapM f l = Ok l') <-> Forall (fun x => exists y, f x = Ok y) l.
Proof.
  induction l as [|x l IH]; cbn; [split; eauto|]. split.
  - intros (l' & H). destruct (f x) as [y|] eqn:E; cbn in H; [|discriminate]. constructor; [eauto|]. apply IH.
    destruct (mapM f l); [eauto|discriminate].
  - intros H. inversion H as [|? ? (y & E) Hr]; subst. rewrite E. cbn. apply IH in Hr as (l' & ->). cbn. eauto.
Qed.
Definition fetch (it : tinterp) (m : tmodel) (k : Z) : res tjnode := do t <- fb_at (tm_tensors m) k; build_from_node it t.
Lemma fetch_ok it m k : (exists n, fetch it m k = Ok n) <-> tensor_ok it m k.
Proof.
  unfold fetch, tensor_ok. split.
  - intros (n & H). destruct (fb_at (tm_tensors m) k) as [t|] eqn:E; cbn in H; [|discriminate].
    exists t. split; [now apply fb_at_ok|]. apply build_node_ok. eauto.
  - intros (t & A & C). apply fb_at_ok in A. rewrite A. cbn. now apply build_node_ok.
Qed.
Lemma fetch_of it m k n : describes it m -> fetch it m k = Ok n -> node_of it m k n.
Proof.
  intros D H. unfold fetch in H. destruct (fb_at (tm_tensors m) k) as [t|] eqn:E; cbn in H; [|discriminate].
  apply fb_at_ok in E. exact (build_node_of it m k t n D E H).
Qed.
(** building the nodes of a list of tensors in two passes is building them one by one *)
Lemma two_pass it m ks ns : (do ts <- mapM (fb_at (tm_tensors m)) ks; mapM (build_from_node it) ts) = Ok ns <-> mapM (fetch it m) ks = Ok ns.
Proof.
  revert ns. induction ks as [|k ks IH]; intros ns; cbn; [reflexivity|]. unfold fetch at 1.
  destruct (fb_at (tm_tensors m) k) as [t|] eqn:E; cbn; [|split; discriminate].
  destruct (mapM (fb_at (tm_tensors m)) ks) as [ts|] eqn:E2; cbn in IH |- *.
  - destruct (build_from_node it t) as [n|]; cbn; [|split; discriminate].
    destruct (mapM (build_from_node it) ts) as [r|] eqn:E3; cbn.
    + rewrite (proj1 (IH r) eq_refl). reflexivity.
    + destruct (mapM (fetch it m) ks) as [r'|] eqn:E4; cbn; [|split; discriminate].
      pose proof (proj2 (IH r') eq_refl). discriminate.
  - destruct (build_from_node it t) as [n|]; cbn; [|split; discriminate].
    destruct (mapM (fetch it m) ks) as [r'|] eqn:E4; cbn; [|split; discriminate].
    pose proof (proj2 (IH r') eq_refl). discriminate.
Qed.
Lemma base_build_ok it m op j : base_build it m op = Ok j <->
  exists ty ji jo, at_ (tm_codes m) (to_code op) ty /\ mapM (fetch it m) (to_in op) = Ok ji /\ mapM (fetch it m) (to_out op) = Ok jo /\
    j = mkjop ty ty (mktb ji jo ty).
Proof.
  unfold base_build. split.
  - intros H. destruct (fb_at (tm_codes m) (to_code op)) as [ty|] eqn:E; cbn in H; [|discriminate].
    destruct (mapM (fb_at (tm_tensors m)) (to_in op)) as [is|] eqn:E1; cbn in H; [|discriminate].
    destruct (mapM (fb_at (tm_tensors m)) (to_out op)) as [os|] eqn:E2; cbn in H; [|discriminate].
    destruct (mapM (build_from_node it) is) as [ji|] eqn:E3; cbn in H; [|discriminate].
    destruct (mapM (build_from_node it) os) as [jo|] eqn:E4; cbn in H; [|discriminate].
    injection H as <-. exists ty, ji, jo. split; [now apply fb_at_ok|].
    split; [apply two_pass; rewrite E1; exact E3|]. split; [apply two_pass; rewrite E2; exact E4|reflexivity].
  - intros (ty & ji & jo & A & B & C & ->). apply fb_at_ok in A. rewrite A. cbn.
    apply two_pass in B. apply two_pass in C.
    destruct (mapM (fb_at (tm_tensors m)) (to_in op)) as [is|]; cbn in B; [|discriminate].
    destruct (mapM (fb_at (tm_tensors m)) (to_out op)) as [os|]; cbn in C; [|discriminate]. cbn.
    rewrite B, C. reflexivity.
Qed.
Lemma build_lut_ok f is iz os oz : build_lut f is iz os oz = Ok (json_reduced int8 f is iz os oz 3 0).
Proof.
  unfold build_lut. change i8 with int8.
  assert (L : length (create_LUT int8 f is iz os oz None) = 256%nat) by (rewrite (create_LUT_length _ _ _ _ _ _ None I); reflexivity).
  rewrite L. reflexivity.
Qed.
Lemma lut_build_ok f name it m op j : lut_build f name it m op = Ok j <->
  exists ty i is u us, at_ (tm_codes m) (to_code op) ty /\ mapM (fetch it m) (to_in op) = Ok (i :: is) /\ mapM (fetch it m) (to_out op) = Ok (u :: us) /\
    j = mkjop name name (mktb (set_lut i (json_reduced int8 f (or_Q (tj_scale i) 1) (or_Z (tj_zp i) 0) (or_Q (tj_scale u) 1) (or_Z (tj_zp u) 0) 3 0) :: is)
      (u :: us) ty).
Proof.
  unfold lut_build. split.
  - intros H. destruct (base_build it m op) as [o|] eqn:B; cbn [rbind] in H; [|discriminate].
    apply base_build_ok in B as (ty & ji & jo & A & Bi & Bo & ->). cbn [jo_body tb_in tb_out tb_desc] in H.
    destruct ji as [|i is]; [discriminate|]. destruct jo as [|u us]; [discriminate|].
    rewrite build_lut_ok in H. cbn [rbind] in H. injection H as <-. exists ty, i, is, u, us. auto.
  - intros (ty & i & is & u & us & A & B & C & ->).
    assert (X : base_build it m op = Ok (mkjop ty ty (mktb (i :: is) (u :: us) ty))) by (apply base_build_ok; eauto 8).
    rewrite X. cbn [rbind jo_body tb_in tb_out tb_desc]. rewrite build_lut_ok. reflexivity.
Qed.
Lemma eqb_str_refl a : chars_eqb a a = true.
Proof. now apply chars_eqb_eq. Qed.

(** ** C71: the converter *)
(** Conversion succeeds exactly for models all of whose referenced tensors are named, listed (if they hold data), shaped and
    quantized per tensor (or not at all), and whose TANH/LOGISTIC operators have an input and an output. *)
Theorem C71_succeeds_iff : forall tanh sigmoid it m,
  (exists j, convert tanh sigmoid it m = Ok j) <->
  (Forall (tensor_ok it m) (tm_inputs m) /\ Forall (tensor_ok it m) (tm_outputs m) /\ Forall (op_ok it m) (tm_ops m)).
Proof.
  intros tanh sigmoid it m.
  assert (IO : forall ks, (exists ns, mapM (fetch it m) ks = Ok ns) <-> Forall (tensor_ok it m) ks).
  { intros ks. rewrite mapM_total. split; intros H; (eapply Forall_impl; [|exact H]); intros k; apply fetch_ok. }
  assert (OP : forall op, (exists j, build_from_operator tanh sigmoid it m op = Ok j) <-> op_ok it m op).
  { intros op. unfold build_from_operator, op_ok. rewrite <- !IO.
    assert (LB : forall f nm ty, at_ (tm_codes m) (to_code op) ty -> (exists j, lut_build f nm it m op = Ok j) <->
      ((to_in op <> [] /\ to_out op <> []) /\ (exists ns, mapM (fetch it m) (to_in op) = Ok ns) /\ (exists ns, mapM (fetch it m) (to_out op) = Ok ns))).
    { intros f nm ty A. split.
      - intros (j & H). apply lut_build_ok in H as (ty' & i & is & u & us & _ & B & C & _).
        split; [|split; eauto]. split; intros Z0; rewrite Z0 in *; discriminate.
      - intros ((N1 & N2) & (ji & B) & (jo & C)). destruct ji as [|i is].
        { apply mapM_length in B. destruct (to_in op); [congruence|discriminate]. }
        destruct jo as [|u us]; [apply mapM_length in C; destruct (to_out op); [congruence|discriminate]|].
        eexists. apply lut_build_ok. exists ty, i, is, u, us. auto. }
    destruct (fb_at (tm_codes m) (to_code op)) as [ty|] eqn:E; cbn [rbind].
    2:{ split; [intros (j & H); discriminate|intros ((ty & A & _) & _)]. apply fb_at_ok in A. congruence. }
    apply fb_at_ok in E as A.
    destruct (chars_eqb ty (str "TANH")) eqn:T.
    { apply chars_eqb_eq in T. rewrite (LB _ _ _ A). split.
      - intros (N & Rest). split; [|exact Rest]. exists ty. split; [exact A|intros _; exact N].
      - intros ((ty' & A' & N) & Rest). split; [|exact Rest]. apply N. rewrite (at_fun _ _ _ _ A' A). now left. }
    destruct (chars_eqb ty (str "LOGISTIC")) eqn:L.
    { apply chars_eqb_eq in L. rewrite (LB _ _ _ A). split.
      - intros (N & Rest). split; [|exact Rest]. exists ty. split; [exact A|intros _; exact N].
      - intros ((ty' & A' & N) & Rest). split; [|exact Rest]. apply N. rewrite (at_fun _ _ _ _ A' A). now right. }
    split.
    - intros (j & H). apply base_build_ok in H as (ty' & ji & jo & _ & B & C & _). split; [|eauto].
      exists ty. split; [exact A|]. intros [->| ->]; [rewrite eqb_str_refl in T|rewrite eqb_str_refl in L]; discriminate.
    - intros (_ & (ji & B) & (jo & C)). eexists. apply base_build_ok. exists ty, ji, jo. auto. }
  unfold convert. fold (fetch it m). change (fun k => do t <- fb_at (tm_tensors m) k; build_from_node it t) with (fetch it m).
  rewrite <- !IO. split.
  - intros (j & H). destruct (mapM (fetch it m) (tm_inputs m)) as [i|]; cbn [rbind] in H; [|discriminate].
    destruct (mapM (fetch it m) (tm_outputs m)) as [o|]; cbn [rbind] in H; [|discriminate].
    destruct (mapM _ (tm_ops m)) as [g|] eqn:G; cbn [rbind] in H; [|discriminate].
    split; [eauto|]. split; [eauto|]. assert (X : exists g', mapM (build_from_operator tanh sigmoid it m) (tm_ops m) = Ok g') by eauto.
    rewrite mapM_total in X. eapply Forall_impl; [|exact X]. intros op. apply OP.
  - intros ((i & ->) & (o & ->) & F). cbn [rbind].
    assert (X : exists g', mapM (build_from_operator tanh sigmoid it m) (tm_ops m) = Ok g').
    { apply mapM_total. eapply Forall_impl; [|exact F]. intros op. apply OP. }
    destruct X as (g & ->). cbn [rbind]. eauto.
Qed.

Lemma fetch_list_of it m ks ns : describes it m -> mapM (fetch it m) ks = Ok ns -> Forall2 (node_of it m) ks ns.
Proof. intros D H. apply mapM_inv in H. eapply Forall2_weaken; [|exact H]. intros k n. now apply fetch_of. Qed.
Lemma node_of_set_lut it m k n l : node_of it m k n -> node_of it m k (set_lut n l).
Proof. intros H. exact H. Qed.

(** The file lists the operators in order, one each, with the types renamed and every node carrying the name, type, shape, data and
    per-tensor parameters of its tensor. *)
Theorem C71_faithful : forall tanh sigmoid it m j, describes it m -> convert tanh sigmoid it m = Ok j ->
  Forall2 (op_of it m) (tm_ops m) (tn_graph j) /\ tn_operators j = Z.of_nat (length (tn_graph j)) /\ tn_version j = tm_version m /\
  Forall2 (node_of it m) (tm_inputs m) (tn_input j) /\ Forall2 (node_of it m) (tm_outputs m) (tn_output j).
Proof.
  intros tanh sigmoid it m j D H. unfold convert in H.
  change (fun k => do t <- fb_at (tm_tensors m) k; build_from_node it t) with (fetch it m) in H.
  destruct (mapM (fetch it m) (tm_inputs m)) as [i|] eqn:I0; cbn [rbind] in H; [|discriminate].
  destruct (mapM (fetch it m) (tm_outputs m)) as [o|] eqn:O0; cbn [rbind] in H; [|discriminate].
  destruct (mapM _ (tm_ops m)) as [g|] eqn:G; cbn [rbind] in H; [|discriminate]. injection H as <-. cbn [tn_graph tn_operators tn_version tn_input tn_output].
  split; [|split; [rewrite (mapM_length _ _ _ G); reflexivity|split; [reflexivity|split; apply fetch_list_of; assumption]]].
  apply mapM_inv in G. eapply Forall2_weaken; [|exact G]. clear - D. intros op j B. unfold build_from_operator in B.
  destruct (fb_at (tm_codes m) (to_code op)) as [ty|] eqn:E; cbn [rbind] in B; [|discriminate]. apply fb_at_ok in E.
  assert (LB : forall f nm, exported_type ty = nm -> lut_build f nm it m op = Ok j -> op_of it m op j).
  { intros f nm X B'. apply lut_build_ok in B' as (ty' & i & is & u & us & _ & Bi & Bo & ->). exists ty. cbn [jo_type jo_name jo_body tb_in tb_out].
    split; [exact E|]. split; [auto|]. split; [auto|]. split; [|now apply fetch_list_of].
    pose proof (fetch_list_of it m _ _ D Bi) as F. inversion F; subst. constructor; [|assumption]. now apply node_of_set_lut. }
  destruct (chars_eqb ty (str "TANH")) eqn:T; [apply (LB tanh (str "TANHLUT")); [unfold exported_type; now rewrite T|exact B]|].
  destruct (chars_eqb ty (str "LOGISTIC")) eqn:L; [apply (LB sigmoid (str "SIGMOIDLUT")); [unfold exported_type; now rewrite T, L|exact B]|].
  apply base_build_ok in B as (ty' & ji & jo & A & Bi & Bo & ->). rewrite (at_fun _ _ _ _ A E). exists ty. cbn [jo_type jo_name jo_body tb_in tb_out].
  split; [exact E|]. unfold exported_type. rewrite T, L. split; [reflexivity|]. split; [reflexivity|]. split; now apply fetch_list_of.
Qed.

(** A model quantized per channel cannot be converted: one referenced tensor with two scales or zero points is enough. *)
Theorem C71_per_channel_rejected : forall tanh sigmoid it m op k t q, In op (tm_ops m) -> In k (to_in op ++ to_out op) ->
  at_ (tm_tensors m) k t -> tt_quant t = Some q -> ~ (at_most_one (tq_scale q) /\ at_most_one (tq_zp q)) ->
  exists e, convert tanh sigmoid it m = Err e.
Proof.
  intros tanh sigmoid it m op k t q Io Ik A Q0 N. destruct (convert tanh sigmoid it m) as [j|e] eqn:E; [|eauto]. exfalso.
  assert (X : exists j, convert tanh sigmoid it m = Ok j) by eauto. apply C71_succeeds_iff in X as (_ & _ & F).
  rewrite Forall_forall in F. destruct (F op Io) as (_ & F1 & F2).
  assert (T : tensor_ok it m k).
  { apply in_app_or in Ik as [Ik|Ik]; [rewrite Forall_forall in F1; now apply F1|rewrite Forall_forall in F2; now apply F2]. }
  destruct T as (t' & A' & C). rewrite (at_fun _ _ _ _ A' A) in C. apply N. now apply C.
Qed.
(** Builtin options are not exported: a fused ReLU disappears. *)
Definition drop_options (m : tmodel) : tmodel :=
  mktm (tm_version m) (tm_codes m) (tm_tensors m) (map (fun o => mkto (to_code o) (to_in o) (to_out o) []) (tm_ops m)) (tm_inputs m) (tm_outputs m).
Theorem C71_options_lost : forall tanh sigmoid it m, convert tanh sigmoid it (drop_options m) = convert tanh sigmoid it m.
Proof.
  intros tanh sigmoid it m. unfold convert. cbn [drop_options tm_tensors tm_inputs tm_outputs tm_ops tm_version].
  destruct (mapM _ (tm_inputs m)) as [i|]; cbn [rbind]; [|reflexivity]. destruct (mapM _ (tm_outputs m)) as [o|]; cbn [rbind]; [|reflexivity].
  rewrite map_length.
  assert (E : mapM (build_from_operator tanh sigmoid it (drop_options m)) (map (fun o => mkto (to_code o) (to_in o) (to_out o) []) (tm_ops m)) =
    mapM (build_from_operator tanh sigmoid it m) (tm_ops m)).
  { induction (tm_ops m) as [|op r IH]; cbn [map mapM]; [reflexivity|]. rewrite IH. reflexivity. }
  rewrite E. reflexivity.
Qed.
(** Tensors are looked up by name, so of two stored tensors with the same name the first is exported with the data of the second. *)
Theorem C71_duplicate_names_refuted : exists it m j o n, convert (fun x => x) (fun x => x) it m = Ok j /\ tn_graph j = [o] /\ tb_in (jo_body o) = [n] /\
  tm_ops m = [mkto 0 [0] [1] []] /\ Forall2 (fun t k => td_val (ti_get it k) = PVec [k] /\ tt_stored t = true) (tm_tensors m) [0; 1] /\
  tj_tensor n = Some (PVec [1]).
Proof.
  exists (mkti [(str "w", 0); (str "w", 1)] (fun k => mktd [1] (PVec [k]))).
  exists (mktm 3 [str "RELU"] [mktt (Some (str "w")) (Some [1]) (str "INT8") true None; mktt (Some (str "w")) (Some [1]) (str "INT8") true None]
    [mkto 0 [0] [1] []] [] []).
  eexists. eexists. eexists. split; [reflexivity|]. split; [reflexivity|]. split; [reflexivity|]. split; [reflexivity|].
  split; [repeat constructor|reflexivity].
Qed.
Definition pc_it : tinterp := mkti [(str "a", 0); (str "w", 1); (str "y", 2)] (fun _ => mktd [2; 1] (PMat [[7]; [-3]])).
Definition pc_m (q : option tquant) : tmodel := mktm 3 [str "FULLY_CONNECTED"]
  [mktt (Some (str "a")) (Some [1; 1]) (str "INT8") false (Some (mktq (Some [1#2]%Q) None)); mktt (Some (str "w")) (Some [2; 1]) (str "INT8") true q;
   mktt (Some (str "y")) (Some [1; 2]) (str "INT8") false (Some (mktq (Some [1#4]%Q) (Some [5])))] [mkto 0 [0; 1] [2] (str "RELU")] [0] [2].
Example C71_example :
  (exists j o a w y, convert (fun x => x) (fun x => x) pc_it (pc_m (Some (mktq (Some [1#8]%Q) (Some [0])))) = Ok j /\ tn_graph j = [o] /\
    jo_type o = str "FULLY_CONNECTED" /\ tb_in (jo_body o) = [a; w] /\ tb_out (jo_body o) = [y] /\
    tj_scale a = Some (1#2)%Q /\ tj_zp a = Some 0 /\ tj_tensor w = Some (PMat [[7]; [-3]]) /\ tj_zp y = Some 5) /\
  convert (fun x => x) (fun x => x) pc_it (pc_m (Some (mktq (Some [1#8; 1#16]%Q) (Some [0; 0])))) = Err EValueError.
Proof. split; [|reflexivity]. eexists _, _, _, _, _. repeat split. Qed.
Example C71_example_describes : forall q, describes pc_it (pc_m q).
Proof.
  intros q. split; [cbn; repeat constructor; cbn; intuition discriminate|].
  intros k t n (K & A) C. destruct (Z.to_nat k) as [|[|[|?]]] eqn:E; cbn in A; try (injection A as <-); try (destruct n0; discriminate);
    unfold called in C; cbn in C; subst n; cbn [pc_it ti_details In]; rewrite <- (Z2Nat.id k K), E; cbn; auto 10.
Qed.
