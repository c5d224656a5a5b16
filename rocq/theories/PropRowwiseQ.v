(** C95 in exact arithmetic: files written by the quantizer and converted TFLite models answer a batch row by row, and the accuracy of a network
    is the number of samples it gets right one by one. *)
From Verif Require Import Base BaseProofs DtypeModel QuantModel LutModel FcModel FcLayer EngineModel PipeModel TfliteModel LossModel PropFc PropTune PropLoss PropTfliteRun.
Open Scope Z_scope.
Open Scope list_scope.

(** ** A batch and its rows *)
Definition qrows (v : pval) : list pval :=
  match v with VF m => map (fun x => VF [x]) m | VI m => map (fun x => VI [x]) m end.
(** [run] answers batches row by row *)
Definition answers_rows_q {A} (run : list (list A) -> res pval) : Prop := forall n batch,
  batch <> [] -> (forall x, In x batch -> length x = n) ->
  (forall y, run batch = Ok y -> Forall2 (fun x z => run [x] = Ok z) batch (qrows y)) /\
  ((forall x, In x batch -> exists z, run [x] = Ok z) -> exists y, run batch = Ok y).

(** ** Proofs *)
Definition qwide (n : nat) (v : pval) : Prop :=
  match v with
  | VF m => m <> [] /\ Forall (fun x => length x = n) m
  | VI m => m <> [] /\ Forall (fun x => length x = n) m
  end.
Definition qfine (f : pval -> res pval) (v : pval) : Prop :=
  ((forall y, f v = Ok y -> Forall2 (fun a b => f a = Ok b) (qrows v) (qrows y)) /\
   ((forall a, In a (qrows v) -> exists b, f a = Ok b) -> exists y, f v = Ok y)) /\ exists n', forall y, f v = Ok y -> qwide n' y.
Definition qrowwise (f : pval -> res pval) : Prop := forall n v, qwide n v -> qfine f v.
Lemma qfine_ext f g v : (forall u, f u = g u) -> qfine g v -> qfine f v.
Proof.
  intros E ((A & B) & n' & C). split; [split|].
  - intros y Y. rewrite E in Y. specialize (A y Y). clear - A E. induction A as [|a b r s H _ IH]; [constructor|]. constructor; [now rewrite E|exact IH].
  - intros G. destruct B as (y & Y); [|exists y; now rewrite E]. intros a Ha. destruct (G a Ha) as (b & Hb). exists b. now rewrite <- E.
  - exists n'. intros y Y. rewrite E in Y. now apply C.
Qed.

(** how a layer reads its input: as floats or as integers *)
Definition view_of {A} (view : pval -> list (list A)) : Prop := forall n v, qwide n v ->
  view v <> [] /\ Forall (fun x => length x = n) (view v) /\ Forall2 (fun a x => view a = [x] /\ qwide n a) (qrows v) (view v).
Lemma F2_map {A B C} (f : A -> B) (g : A -> C) (R : B -> C -> Prop) l : Forall (fun x => R (f x) (g x)) l -> Forall2 R (map f l) (map g l).
Proof. induction 1; constructor; assumption. Qed.
Lemma view_asF : view_of asF.
Proof.
  intros n [m|m] (NE & L); cbn [asF qrows].
  - split; [exact NE|]. split; [exact L|]. rewrite <- (map_id m) at 2. apply F2_map. eapply Forall_impl; [|exact L]. intros x Hx. cbn.
    split; [reflexivity|]. split; [discriminate|]. constructor; [exact Hx|constructor].
  - split; [destruct m; [contradiction|discriminate]|]. split.
    + apply Forall_map. eapply Forall_impl; [|exact L]. intros x Hx. cbn. now rewrite map_length.
    + apply F2_map. eapply Forall_impl; [|exact L]. intros x Hx. cbn. split; [reflexivity|]. split; [discriminate|]. constructor; [exact Hx|constructor].
Qed.
Lemma view_asI : view_of asI.
Proof.
  intros n [m|m] (NE & L); cbn [asI qrows].
  - split; [destruct m; [contradiction|discriminate]|]. split.
    + apply Forall_map. eapply Forall_impl; [|exact L]. intros x Hx. cbn. now rewrite map_length.
    + apply F2_map. eapply Forall_impl; [|exact L]. intros x Hx. cbn. split; [reflexivity|]. split; [discriminate|]. constructor; [exact Hx|constructor].
  - split; [exact NE|]. split; [exact L|]. rewrite <- (map_id m) at 2. apply F2_map. eapply Forall_impl; [|exact L]. intros x Hx. cbn.
    split; [reflexivity|]. split; [discriminate|]. constructor; [exact Hx|constructor].
Qed.
Definition qkind {A} (D : list (list A) -> pval) : Prop :=
  (forall m, qrows (D m) = map (fun x => D [x]) m) /\ forall n m, m <> [] -> Forall (fun x => length x = n) m -> qwide n (D m).
Lemma kind_VF : qkind VF. Proof. split; [reflexivity|]. intros n m A B. now split. Qed.
Lemma kind_VI : qkind VI. Proof. split; [reflexivity|]. intros n m A B. now split. Qed.

Lemma q_by_rows {A B} f (view : pval -> list (list A)) (D : list (list B) -> pval) g : view_of view -> qkind D ->
  (forall n, exists n', forall x y, length x = n -> g n x = Ok y -> length y = n') ->
  (forall n v, qwide n v -> f v = (do ys <- mapM (g n) (view v); Ok (D ys))) ->
  qrowwise f.
Proof.
  intros VW (RD & WD) W E n v H. destruct (VW n v H) as (NE & L & F). destruct (W n) as (n' & Wn). specialize (E n).
  assert (S1 : Forall2 (fun a x => f a = (do y <- g n x; Ok (D [y]))) (qrows v) (view v)).
  { clear - F E. induction F as [|a x r s (Hx & Wa) _ IH]; constructor; [|exact IH]. rewrite (E a Wa), Hx. cbn [mapM]. destruct (g n x); reflexivity. }
  split; [split|].
  - intros y. rewrite (E v H). destruct (mapM (g n) (view v)) as [ys|] eqn:M; [|discriminate]. cbn [rbind]. intros Y. assert (y = D ys) by congruence. subst y.
    rewrite RD. apply mapM_inv in M. clear - S1 M. revert ys M. induction S1 as [|a x r s Ha _ IH]; intros ys M; inversion M as [|? z ? ys' Hz M']; subst; [constructor|].
    cbn [map]. constructor; [rewrite Ha, Hz; reflexivity|now apply IH].
  - intros G. rewrite (E v H). assert (T : exists ys, mapM (g n) (view v) = Ok ys).
    { clear - S1 G. induction S1 as [|a x r s Ha _ IH]; [now exists []|]. destruct (G a ltac:(now left)) as (b & Hb). rewrite Ha in Hb.
      cbn [mapM]. destruct (g n x) as [z|]; [|discriminate]. cbn [rbind]. destruct IH as (ys & ->); [intros u Hu; apply G; now right|]. cbn [rbind]. eauto. }
    destruct T as (ys & ->). cbn [rbind]. eauto.
  - exists n'. intros y. rewrite (E v H). destruct (mapM (g n) (view v)) as [ys|] eqn:M; [|discriminate]. cbn [rbind]. intros Y. assert (y = D ys) by congruence. subst y.
    apply mapM_inv in M. apply WD.
    + intros ->. inversion M as [X|]. now apply NE.
    + clear - M L Wn. induction M as [|x z m ys Hx M IH]; constructor; [inversion L; subst; eapply Wn; eauto|]. apply IH. now inversion L.
Qed.
Lemma q_by_err f : (forall v, exists e, f v = Err e) -> qrowwise f.
Proof.
  intros E n v H. split; [split|].
  - intros y Y. destruct (E v). congruence.
  - intros G. exfalso. destruct v as [[|x m]|[|x m]]; try (now apply (proj1 H)); destruct (G _ (or_introl eq_refl)) as (b & Hb); destruct (E (VF [x])) || idtac.
    + destruct (E (VF [x])). cbn in Hb. congruence.
    + destruct (E (VI [x])). cbn in Hb. congruence.
  - exists 0%nat. intros y Y. destruct (E v). congruence.
Qed.
Lemma q_by_map {A B} f (view : pval -> list (list A)) (D : list (list B) -> pval) (h : A -> B) : view_of view -> qkind D ->
  (forall v, f v = Ok (D (map (map h) (view v)))) -> qrowwise f.
Proof.
  intros V K E. apply (q_by_rows f view D (fun _ x => Ok (map h x)) V K).
  - intros n. exists n. intros x y L Y. assert (y = map h x) by congruence. subst y. now rewrite map_length.
  - intros n v _. rewrite E. rewrite (mapM_ok_map _ (map h)) by reflexivity. reflexivity.
Qed.
Ltac q_inv H := repeat match type of H with
  | rbind ?x _ = Ok _ => let E := fresh "E" in destruct x eqn:E; [cbn [rbind] in H|discriminate H]
  end.
Lemma q_badd64_len (a b : list Z) : exists n, forall (a' r : list Z), length a' = length a -> badd64 a' b = Ok r -> length r = n.
Proof.
  exists (if (length a =? length b)%nat then length a else if (length a =? 1)%nat then length b else length a).
  intros a' r L H. unfold badd64 in H. rewrite L in H. destruct (Nat.eqb_spec (length a) (length b)) as [E|E].
  - assert (r = map2 (fun x y => i64 (x + y)) a' b) by congruence. subst r. rewrite <- L in E |- *. clear - E. revert b E.
    induction a' as [|u a' IH]; intros [|v b] E; cbn in *; try discriminate; [reflexivity|]. f_equal. apply IH. lia.
  - rewrite <- L. destruct a' as [|x [|x' a']]; cbn [length] in *.
    + destruct b as [|y [|y' b]]; cbn [length] in *; try discriminate; try lia. cbn in H. assert (r = []) by congruence. now subst r.
    + assert (r = map (fun y => i64 (x + y)) b) by (destruct b; congruence). subst r. now rewrite map_length.
    + destruct b as [|y [|y' b]]; try discriminate. assert (r = map (fun x => i64 (x + y)) (x :: x' :: a')) by congruence. subst r. now rewrite map_length.
Qed.
(** the dense kernel on a view of the input *)
Definition fc_on (k : fc) (v : pval) : res pval := do t <- fc_infer k (T2 (asI v)); match t with T2 m => Ok (VI m) | _ => Err EAssertionError end.
Lemma q_fc k : qrowwise (fc_on k).
Proof.
  apply (q_by_rows _ asI VI (fun _ x => match fc_infer k (T1 x) with Ok (T1 y) => Ok y | _ => Err EValueError end) view_asI kind_VI).
  - intros n. destruct (q_badd64_len (map (fun _ => 0) (fc_w k)) (fc_bias k)) as (n' & Hn). exists n'. intros x y _. cbn [fc_infer]. unfold fc_acc_1d.
    destruct (mapM (fun w0 => dot64 w0 (fc_center k x)) (fc_w k)) as [q|] eqn:M; [|discriminate]. cbn [rbind].
    destruct (badd64 q (fc_bias k)) as [r|] eqn:B; [|discriminate]. cbn [rbind]. intros Y. assert (y = map (fc_requant k) r) by congruence. subst y.
    rewrite map_length. eapply Hn; [|exact B]. rewrite map_length. eapply mapM_length; exact M.
  - intros n v _. unfold fc_on. set (m' := asI v).
    assert (G : forall ys, fc_infer k (T2 m') = Ok (T2 ys) <-> mapM (fun x => match fc_infer k (T1 x) with Ok (T1 y) => Ok y | _ => Err EValueError end) m' = Ok ys).
    { intros ys. rewrite mapM_inv. rewrite C16_batch_is_rowwise. generalize m'. clear. intros m'. split; intros F.
      - induction F as [|x y xs ys' Hx F IH]; [constructor|]. constructor; [|exact IH]. rewrite Hx. reflexivity.
      - induction F as [|x y xs ys' Hx F IH]; [constructor|]. constructor; [|exact IH]. revert Hx.
        destruct (fc_infer k (T1 x)) as [[| |]|]; intros Hx; try discriminate. injection Hx as ->. reflexivity. }
    destruct (mapM _ m') as [ys|e] eqn:M.
    + rewrite (proj2 (G ys) eq_refl). reflexivity.
    + cbn [rbind]. assert (NG : forall ys, fc_infer k (T2 m') <> Ok (T2 ys)) by (intros ys X; apply G in X; discriminate).
      assert (Ee : e = EValueError).
      { eapply mapM_err; [|exact M]. intros x e'. cbn beta. destruct (fc_infer k (T1 x)) as [[| |]|]; congruence. }
      subst e. destruct (fc_infer k (T2 m')) as [t|e] eqn:X.
      * exfalso. cbn [fc_infer] in X. destruct (fc_acc_2d k m') as [q|]; [|discriminate]. cbn [rbind] in X. apply (NG (map (map (fc_requant k)) q)). congruence.
      * cbn [rbind]. f_equal. cbn [fc_infer] in X. destruct (fc_acc_2d k m') as [q|e'] eqn:Q; [discriminate|]. cbn [rbind] in X. assert (e' = e) by congruence. subst e'.
        unfold fc_acc_2d in Q. destruct (mapM (fun x => mapM _ (fc_w k)) m') as [q|e'] eqn:Q'; cbn [rbind] in Q.
        -- eapply mapM_err; [|exact Q]. intros r e' B. unfold badd64 in B. destruct (length r =? length (fc_bias k))%nat; [discriminate|].
           destruct r as [|u [|u' r]]; destruct (fc_bias k) as [|v0 [|v' bb]]; congruence.
        -- assert (e' = e) by congruence. subst e'. eapply mapM_err; [|exact Q']. intros x e' B. eapply mapM_err; [|exact B]. intros u e'' D. eapply dot64_err; exact D.
Qed.
Definition lut_on (a : lutact) (v : pval) : res pval :=
  match concat (asI v) with
  | [] => Err EValueError
  | _ => do m <- mapM (mapM (fun x => lookup (la_table a) (x + la_offset a))) (asI v); Ok (VI m)
  end.
Lemma q_lut a : qrowwise (lut_on a).
Proof.
  apply (q_by_rows _ asI VI (fun k x => if (k =? 0)%nat then Err EValueError else mapM (fun c => lookup (la_table a) (c + la_offset a)) x) view_asI kind_VI).
  - intros n. exists n. intros x y L. destruct (n =? 0)%nat; [discriminate|]. intros M. rewrite <- L. eapply mapM_length; exact M.
  - intros n v H. destruct (view_asI n v H) as (NE & L & _). unfold lut_on. generalize (asI v) as m, NE, L. clear. intros m NE L.
    destruct n as [|n].
    + assert (Z : concat m = @nil Z). { clear NE. induction L as [|x m Hx L IH]; [reflexivity|]. cbn [concat]. rewrite IH. destruct x; [reflexivity|discriminate]. }
      rewrite Z. destruct m; [contradiction|reflexivity].
    + destruct m as [|[|z x] m]; [contradiction|inversion L; discriminate|]. reflexivity.
Qed.
Lemma q_id : qrowwise (fun v => Ok v).
Proof.
  intros n v W. split; [split|].
  - intros y Y. assert (y = v) by congruence. subst y. induction (qrows v) as [|a r IH]; constructor; [reflexivity|exact IH].
  - eauto.
  - exists n. intros y Y. congruence.
Qed.

(** *** Whole networks *)
Lemma q_run_inter {V} : forall (ls : list (layer V)) x i j, snd (run_layers ls x i) = snd (run_layers ls x j).
Proof. induction ls as [|l ls IH]; intros x i j; cbn [run_layers snd]; [reflexivity|]. destruct (l x); [apply IH|reflexivity]. Qed.
Lemma q_run : forall ls, Forall qrowwise ls -> qrowwise (fun v => snd (run_layers ls v [])).
Proof.
  induction ls as [|l ls IH]; intros F; [exact q_id|]. inversion F as [|? ? Fl Fls]; subst. specialize (IH Fls). intros n v W.
  assert (S1 : forall u, snd (run_layers (l :: ls) u []) = (do y <- l u; snd (run_layers ls y []))).
  { intros u. cbn [run_layers]. destruct (l u); [|reflexivity]. cbn [rbind]. apply q_run_inter. }
  destruct (Fl n v W) as ((A & B) & n1 & C). apply (qfine_ext _ _ _ S1). split; [split|].
  - intros y. destruct (l v) as [u|] eqn:E; [|discriminate]. cbn [rbind]. intros Y. specialize (A u eq_refl). destruct (IH n1 u (C u eq_refl)) as ((A' & _) & _).
    specialize (A' y Y). clear - A A'. revert A'. generalize (qrows y). induction A as [|a b r s H _ IHr]; intros t A'; inversion A' as [|? c ? t' H' A'']; subst; constructor.
    + rewrite H. exact H'.
    + now apply IHr.
  - intros G. destruct (B ltac:(intros a Ha; destruct (G a Ha) as (b & Hb); destruct (l a); [eauto|discriminate])) as (u & E). rewrite E. cbn [rbind].
    specialize (A u E). destruct (IH n1 u (C u E)) as ((_ & B') & _). apply B'. intros b Hb. clear - A G Hb.
    induction A as [|a c r s H _ IHr]; [contradiction|]. destruct Hb as [<-|Hb].
    + destruct (G a ltac:(now left)) as (z & Hz). rewrite H in Hz. eauto.
    + apply IHr; [|exact Hb]. intros a' Ha'. apply G. now right.
  - destruct (l v) as [u|] eqn:E; cbn [rbind].
    + destruct (IH n1 u (C u eq_refl)) as (_ & n2 & C2). exists n2. exact C2.
    + exists 0%nat. discriminate.
Qed.
Lemma q_net {O} (b : builders O pval) (j : jnet O) toi8 : (forall build op l, In op (jt_graph j) -> get_engine b (jt_engine j) = Ok build -> build op = Ok l -> qrowwise l) ->
  (forall z q, qrowwise (fun v => toi8 v z q)) ->
  qrowwise (fun v => do n <- seq_init b j; snd (seq_infer toi8 n v)).
Proof.
  intros R T8. destruct (seq_init b j) as [nt|e] eqn:E; cbn [rbind]; [|apply q_by_err; intros; eexists; reflexivity].
  assert (F : Forall qrowwise (sn_layers nt)).
  { unfold seq_init in E. destruct (py_index (jt_input j) 0) as [[i|]|]; cbn [rbind] in E; try discriminate; destruct (py_index (jt_output j) 0) as [[o|]|]; cbn [rbind] in E; try discriminate.
    destruct (py_index (jt_graph j) 0) as [g0|]; cbn [rbind] in E; [|discriminate]. destruct (get_engine b (jt_engine j)) as [build|] eqn:Eb; cbn [rbind] in E; [|discriminate].
    destruct (mapM build (jt_graph j)) as [ls|] eqn:M; cbn [rbind] in E; [|discriminate].
    match type of E with Ok ?u = _ => assert (nt = u) by congruence end. subst nt. cbn [sn_layers]. apply mapM_inv in M.
    assert (R' : forall op l, In op (jt_graph j) -> build op = Ok l -> qrowwise l) by (intros op l I; now apply (R build op l I)).
    clear - M R'. induction M as [|op l ops ls H _ IH]; constructor; [apply (R' op); [now left|exact H]|]. apply IH. intros op' l' I. apply R'. now right. }
  set (z := or_Z (sn_in_zp nt) 0). set (q := or_Q (sn_in_s nt) 1).
  assert (S2 : forall v, snd (seq_infer toi8 nt v) = if sn_quant nt then snd (run_layers (sn_layers nt) v []) else snd (run_layers ((fun v => toi8 v z q) :: sn_layers nt) v [])).
  { intros v. unfold seq_infer. fold z q. destruct (sn_quant nt).
    - destruct (run_layers (sn_layers nt) v []); reflexivity.
    - cbn [run_layers]. destruct (toi8 v z q) as [u|]; [|reflexivity]. rewrite (q_run_inter _ u ([] ++ [u]) []). destruct (run_layers (sn_layers nt) u []); reflexivity. }
  intros n v W. apply (qfine_ext _ _ _ S2). destruct (sn_quant nt).
  - exact (q_run _ F n v W).
  - exact (q_run _ (Forall_cons _ (T8 z q) F) n v W).
Qed.
Lemma q_toi8 : forall z q, qrowwise (fun v => no_toi8 v z q).
Proof. intros z q. apply q_by_err. intros v. eexists. reflexivity. Qed.
Lemma q_ie j : qrowwise (fun v => do n <- pipe_load j; snd (seq_infer no_toi8 n v)).
Proof.
  apply q_net; [|exact q_toi8]. intros build op l _ G H. unfold get_engine in G.
  destruct (chars_eqb _ (chars_of "TFLITE")); [|destruct (chars_eqb _ (chars_of "ONNX")); [|discriminate]].
  2:{ injection G as <-. unfold build_operator in H. destruct (build_operator_kind (jo_type op)); discriminate. }
  injection G as <-. unfold build_layer in H. destruct (build_layer_kind (jo_type op)) as [k|]; [|discriminate]. cbn [rbind ie_builders b_tflite] in H.
  assert (LUT : forall b, ie_lut b = Ok l -> qrowwise l) by (intros b X; unfold ie_lut in X; q_inv X; injection X as <-; apply q_lut).
  destruct k; try discriminate; try (now apply (LUT _ H)).
  all: match type of H with
    | ie_quantize _ = _ => unfold ie_quantize in H; q_inv H; injection H as <-; eapply (q_by_map _ asF VI _ view_asF kind_VI); reflexivity
    | ie_dequantize _ = _ => unfold ie_dequantize in H; q_inv H; injection H as <-; eapply (q_by_map _ asI VF _ view_asI kind_VF); reflexivity
    | ie_softmax _ = _ => unfold ie_softmax in H; q_inv H; injection H as <-; exact q_id
    | ie_fc ?b = _ => unfold ie_fc in H; q_inv H
    end.
  repeat match type of H with (match ?x with _ => _ end) = Ok _ => destruct x; try discriminate end. q_inv H. injection H as <-. apply q_fc.
Qed.
Lemma q_te j toi8 : (forall z q, qrowwise (fun v => toi8 v z q)) -> qrowwise (fun v => do n <- seq_init te_builders j; snd (seq_infer toi8 n v)).
Proof.
  intros T8. apply q_net; [|exact T8]. intros build op l _ G H. unfold get_engine in G.
  destruct (chars_eqb _ (chars_of "TFLITE")); [|destruct (chars_eqb _ (chars_of "ONNX")); [|discriminate]].
  2:{ injection G as <-. unfold build_operator in H. destruct (build_operator_kind (jo_type op)); discriminate. }
  injection G as <-. unfold build_layer in H. destruct (build_layer_kind (jo_type op)) as [k|]; [|discriminate]. cbn [rbind te_builders b_tflite] in H.
  assert (LUT : forall b, te_lut b = Ok l -> qrowwise l) by (intros b X; unfold te_lut in X; q_inv X; injection X as <-; apply q_lut).
  destruct k; try discriminate; try (now apply (LUT _ H)).
  all: match type of H with
    | te_quantize _ = _ => unfold te_quantize in H; q_inv H; injection H as <-;
        match goal with |- qrowwise (fun v => match tj_scale ?o with _ => _ end) => destruct (tj_scale o); [destruct (tj_zp o)|] end;
        [eapply (q_by_map _ asF VI _ view_asF kind_VI); reflexivity|apply q_by_err; intros; eexists; reflexivity|apply q_by_err; intros; eexists; reflexivity]
    | te_dequantize _ = _ => unfold te_dequantize in H; q_inv H; injection H as <-;
        match goal with |- qrowwise (fun v => match tj_scale ?o with _ => _ end) => destruct (tj_scale o); [destruct (tj_zp o)|] end;
        [eapply (q_by_map _ asI VF _ view_asI kind_VF); reflexivity|apply q_by_err; intros; eexists; reflexivity|apply q_by_err; intros; eexists; reflexivity]
    | te_fc ?b = _ => unfold te_fc in H; q_inv H;
        repeat match type of H with (match ?x with _ => _ end) = Ok _ => destruct x; try discriminate end; q_inv H; injection H as <-; apply q_fc
    | te_relu ?b = _ => unfold te_relu in H; q_inv H;
        repeat match type of H with (match ?x with _ => _ end) = Ok _ => destruct x; try discriminate end;
        injection H as <-; eapply (q_by_map _ asI VI _ view_asI kind_VI); reflexivity
    | rbind _ _ = _ => q_inv H; injection H as <-; exact q_id
    end.
Qed.
Lemma q_answers {A} (C : list (list A) -> pval) f : qkind C -> qrowwise f -> answers_rows_q (fun batch => f (C batch)).
Proof.
  intros (RC & WC) R n batch NE L. destruct (R n (C batch)) as ((X & Y) & _); [apply WC; [exact NE|now apply Forall_forall]|]. rewrite RC in X, Y. split.
  - intros y H. specialize (X y H). clear - X. revert X. generalize (qrows y) as r. induction batch as [|x batch IH]; intros r X; inversion X; subst; constructor; auto.
  - intros G. apply Y. intros a Ha. apply in_map_iff in Ha as (x & <- & Hx). now apply G.
Qed.

(** ** C95 *)
Theorem C95_exact_batch : forall j, answers_rows_q (outputs j).
Proof. intros j. exact (q_answers VF _ kind_VF (q_ie j)). Qed.
(** A converted TFLite model, on floats or on codes, when the conversion of a legacy input (no leading QUANTIZE) goes element by element. *)
Theorem C95_tflite_batch : forall tanh sigmoid (h : Z -> Q -> Q -> Z) it m,
  let toi8 v z q := Ok (VI (map (map (h z q)) (asF v))) in
  answers_rows_q (fun batch => t_execute tanh sigmoid toi8 it m (VF batch)) /\ answers_rows_q (fun batch => t_execute tanh sigmoid toi8 it m (VI batch)).
Proof.
  intros tanh sigmoid h it m toi8.
  assert (R : qrowwise (t_execute tanh sigmoid toi8 it m)).
  { unfold t_execute. destruct (convert tanh sigmoid it m) as [j|]; cbn [rbind]; [|apply q_by_err; intros; eexists; reflexivity].
    apply q_te. intros z q. eapply (q_by_map _ asF VI _ view_asF kind_VI). reflexivity. }
  split; [exact (q_answers VF _ kind_VF R)|exact (q_answers VI _ kind_VI R)].
Qed.
(** The accuracy of a file on a test set is the number of samples it gets right on their own. *)
Theorem C95_hits_add_up : forall j n batch labels h, batch <> [] -> (forall x, In x batch -> length x = n) -> length labels = length batch ->
  hits_of (outputs j batch) labels = Ok h ->
  exists hs, Forall2 (fun p k => hits_of (outputs j [fst p]) [snd p] = Ok k) (combine batch labels) hs /\ h = fold_right Nat.add 0%nat hs.
Proof.
  intros j n batch labels h NE L LL H. destruct (C95_exact_batch j n batch NE L) as (A & _). unfold hits_of in *.
  destruct (outputs j batch) as [v|]; [|discriminate]. specialize (A v eq_refl). cbn [rbind] in H. destruct (predictions (asF v)) as [p|] eqn:P; [|discriminate].
  cbn [rbind] in H. assert (h = count_hits p labels) by congruence. subst h. clear H NE L. unfold predictions in *. apply mapM_inv in P.
  assert (V : Forall2 (fun a x => asF a = [x]) (qrows v) (asF v)).
  { destruct v as [m|m]; cbn [qrows asF]; [rewrite <- (map_id m) at 2|]; apply F2_map; apply Forall_forall; reflexivity. }
  clear - A P V LL. revert labels p P LL. generalize (asF v) as ys, (qrows v) as r, A, V. clear. intros ys r A. revert ys.
  induction A as [|x a batch r Hx _ IH]; intros ys V labels p P LL; inversion V as [|? y ? ys' Va V']; subst; inversion P as [|? c ? p' Hc P']; subst.
  - destruct labels; [|discriminate]. exists []. split; [constructor|reflexivity].
  - destruct labels as [|e labels]; [discriminate|]. destruct (IH ys' V' labels p' P' ltac:(cbn in LL; lia)) as (hs & F & E).
    exists ((if (c =? e)%nat then 1 else 0)%nat :: hs). split.
    + cbn [combine]. constructor; [|exact F]. cbn [fst snd]. rewrite Hx. cbn [rbind]. rewrite Va. cbn [mapM]. rewrite Hc. cbn [rbind count_hits]. f_equal. lia.
    + cbn [count_hits fold_right]. now rewrite E.
Qed.
(** The built file of C82's example gets five of the six samples right; the TFLite model of C72's example answers two samples. *)
Example C95_exact_example : exists j, hits_of (outputs j PropLoss.cx_x) PropLoss.cx_y = Ok 5%nat /\
  (exists hs, Forall2 (fun p k => hits_of (outputs j [fst p]) [snd p] = Ok k) (combine PropLoss.cx_x PropLoss.cx_y) hs /\ 5%nat = fold_right Nat.add 0%nat hs) /\
  (forall h, exists y, t_execute PropTfliteRun.ex_f PropTfliteRun.ex_f (fun v z q => Ok (VI (map (map (h z q)) (asF v)))) PropTfliteRun.ex_it PropTfliteRun.ex_m
     (VF [[1; -1#2]; [3; 2]]%Q) = Ok y /\ qrows y = [VF [[77 # 128; 71 # 128]]; VF [[0 # 128; 106 # 128]]]%Q).
Proof.
  destruct PropLoss.C82_example as (j & _ & _ & _ & _ & _ & _ & _ & H & _). exists j. split; [exact H|]. split.
  - apply (C95_hits_add_up j 2 PropLoss.cx_x PropLoss.cx_y 5%nat); [discriminate| |reflexivity|exact H].
    intros r Hr. repeat (destruct Hr as [<- | Hr]; [reflexivity|]). destruct Hr.
  - intros h. eexists. split; [vm_compute; reflexivity|reflexivity].
Qed.
