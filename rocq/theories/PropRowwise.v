(** C95: a batch given to a network is answered row by row. *)
From Verif Require Import Base BaseProofs DtypeModel QuantModel LutModel FcModel FcLayer EngineModel FloatModel FloatFcModel PipeModel FloatEngineModel OnnxModel ConvModel
  FloatOnnxModel FloatOnnxNetModel PropFc PropFloatOnnx PropFloatNet PropFloatOnnxNet.
Open Scope Z_scope.
Open Scope list_scope.

(** ** A batch and its rows *)
(** the rows of a 2-D array, each as a batch of one *)
Definition rows (v : fval) : list fval :=
  match v with GF m => map (fun x => GF [x]) m | GI m => map (fun x => GI [x]) m end.
(** a non-empty 2-D array of [n] columns *)
Definition wide (n : nat) (v : fval) : Prop :=
  match v with
  | GF m => m <> [] /\ Forall (fun x => length x = n) m
  | GI m => m <> [] /\ Forall (fun x => length x = n) m
  end.
(** [f] answers a batch with the answers to its rows, and fails only if one of them does *)
Definition row_by_row (f : fval -> res fval) (v : fval) : Prop :=
  (forall y, f v = Ok y -> Forall2 (fun a b => f a = Ok b) (rows v) (rows y)) /\
  ((forall a, In a (rows v) -> exists b, f a = Ok b) -> exists y, f v = Ok y).

(** ** Proofs *)
Definition fine (f : fval -> res fval) (v : fval) : Prop := row_by_row f v /\ exists n', forall y, f v = Ok y -> wide n' y.
Definition rowwise (f : fval -> res fval) : Prop := forall n v, wide n v -> fine f v.
Lemma rw_intro f : (forall n m, wide n (GF m) -> fine f (GF m)) -> (forall n m, wide n (GI m) -> fine f (GI m)) -> rowwise f.
Proof. intros F I n [m|m] W; [now apply (F n)|now apply (I n)]. Qed.

Lemma fine_ext f g v : (forall u, f u = g u) -> fine g v -> fine f v.
Proof.
  intros E ((A & B) & n' & C). split; [split|].
  - intros y Y. rewrite E in Y. specialize (A y Y). clear - A E. induction A as [|a b r s H _ IH]; [constructor|]. constructor; [now rewrite E|exact IH].
  - intros G. destruct B as (y & Y); [|exists y; now rewrite E]. intros a Ha. destruct (G a Ha) as (b & Hb). exists b. now rewrite <- E.
  - exists n'. intros y Y. rewrite E in Y. now apply C.
Qed.
Definition kind_of {A} (C : list (list A) -> fval) : Prop :=
  (forall m, rows (C m) = map (fun x => C [x]) m) /\ forall n m, wide n (C m) <-> (m <> [] /\ Forall (fun x => length x = n) m).
Lemma kind_GF : kind_of GF. Proof. split; [reflexivity|]. intros n m. reflexivity. Qed.
Lemma kind_GI : kind_of GI. Proof. split; [reflexivity|]. intros n m. reflexivity. Qed.

Lemma by_rows {A B} f (C : list (list A) -> fval) (D : list (list B) -> fval) n g : kind_of C -> kind_of D ->
  (forall m, m <> [] -> Forall (fun x => length x = n) m -> f (C m) = (do ys <- mapM g m; Ok (D ys))) ->
  (exists n', forall x y, length x = n -> g x = Ok y -> length y = n') ->
  forall m, wide n (C m) -> fine f (C m).
Proof.
  intros (RC & WC) (RD & WD) E (n' & W) m H. apply WC in H as [NE L].
  assert (S1 : forall x, In x m -> f (C [x]) = (do y <- g x; Ok (D [y]))).
  { intros x Hx. rewrite E; [|discriminate|constructor; [rewrite Forall_forall in L; now apply L|constructor]]. cbn [mapM]. destruct (g x); reflexivity. }
  split; [split|].
  - intros y. rewrite E by assumption. destruct (mapM g m) as [ys|] eqn:M; [|discriminate]. cbn [rbind]. intros Y. assert (y = D ys) by congruence. subst y.
    rewrite RC, RD. apply mapM_inv in M. clear - S1 M. induction M as [|x z m ys Hx M IH]; [constructor|]. cbn [map]. constructor.
    + rewrite S1 by now left. now rewrite Hx.
    + apply IH. intros u Hu. apply S1. now right.
  - intros A'. rewrite E by assumption. rewrite RC in A'. assert (T : exists ys, mapM g m = Ok ys).
    { clear - S1 A'. induction m as [|x m IH]; [now exists []|]. destruct (A' (C [x]) ltac:(now left)) as (b & Hb). rewrite (S1 x) in Hb by now left.
      cbn [mapM]. destruct (g x) as [z|]; [|discriminate]. cbn [rbind]. destruct IH as (ys & ->).
      - intros u Hu. apply S1. now right.
      - intros u Hu. apply A'. now right.
      - cbn [rbind]. eauto. }
    destruct T as (ys & ->). cbn [rbind]. eauto.
  - exists n'. intros y. rewrite E by assumption. destruct (mapM g m) as [ys|] eqn:M; [|discriminate]. cbn [rbind]. intros Y. assert (y = D ys) by congruence. subst y.
    apply WD. apply mapM_inv in M. split; [intros ->; inversion M; subst; now apply NE|].
    clear - M L W. induction M as [|x z m ys Hx M IH]; constructor.
    + inversion L; subst. eapply W; eauto.
    + apply IH. now inversion L.
Qed.
Lemma by_err {A} f (C : list (list A) -> fval) n : kind_of C -> (forall m, exists e, f (C m) = Err e) ->
  forall m, wide n (C m) -> fine f (C m).
Proof.
  intros (RC & WC) E m H. apply WC in H as [NE _]. destruct (E m) as (e & Em). split; [split|].
  - intros y Y. congruence.
  - intros A'. destruct m as [|x m]; [contradiction|]. rewrite RC in A'. destruct (A' (C [x]) ltac:(now left)) as (b & Hb). destruct (E [x]). congruence.
  - exists 0%nat. intros y Y. congruence.
Qed.
Lemma mapM_pure {A B} (f : A -> B) l : mapM (fun x => Ok (f x)) l = Ok (map f l).
Proof. apply mapM_ok_map. reflexivity. Qed.
(** an element-wise layer *)
Lemma by_map {A B} f (C : list (list A) -> fval) (D : list (list B) -> fval) n (h : A -> B) : kind_of C -> kind_of D ->
  (forall m, f (C m) = Ok (D (map (map h) m))) ->
  forall m, wide n (C m) -> fine f (C m).
Proof.
  intros KC KD E. apply (by_rows f C D n (fun x => Ok (map h x)) KC KD).
  - intros m _ _. now rewrite E, mapM_pure.
  - exists n. intros x y L Y. assert (y = map h x) by congruence. subst y. now rewrite map_length.
Qed.

(** *** Layers of the engine *)
Ltac ok_inv H := repeat match type of H with
  | rbind ?x _ = Ok _ => let E := fresh "E" in destruct x eqn:E; [cbn [rbind] in H|discriminate H]
  end.
Lemma rw_quantize b l : fe_quantize b = Ok l -> rowwise l.
Proof.
  unfold fe_quantize. intros H. ok_inv H. injection H as <-. apply rw_intro; intros n m W.
  - eapply (by_map _ GF GI n _ kind_GF kind_GI); [reflexivity|exact W].
  - apply (by_err _ GI n kind_GI); [intros; eexists; reflexivity|exact W].
Qed.
Lemma rw_dequantize b l : fe_dequantize b = Ok l -> rowwise l.
Proof.
  unfold fe_dequantize. intros H. ok_inv H. injection H as <-. apply rw_intro; intros n m W.
  - apply (by_err _ GF n kind_GF); [intros; eexists; reflexivity|exact W].
  - eapply (by_map _ GI GF n _ kind_GI kind_GF); [reflexivity|exact W].
Qed.
Lemma mapM_len {A B} (f : A -> res B) l l' : mapM f l = Ok l' -> length l' = length l.
Proof. apply mapM_length. Qed.
Lemma badd64_len (a b : list Z) : exists n, forall (a' r : list Z), length a' = length a -> badd64 a' b = Ok r -> length r = n.
Proof.
  exists (if (length a =? length b)%nat then length a else if (length a =? 1)%nat then length b else length a).
  intros a' r L H. unfold badd64 in H. rewrite L in H. destruct (Nat.eqb_spec (length a) (length b)) as [E|E].
  - assert (r = map2 (fun x y => i64 (x + y)) a' b) by congruence. subst r. clear H. rewrite <- L in E |- *. revert b E; induction a' as [|x a' IH]; intros [|y b] E; cbn in *; try discriminate; try reflexivity.
    f_equal. clear L. assert (E' : length a' = length b) by lia. clear IH E. revert b E'. induction a' as [|u a' IH]; intros [|v b] E; cbn in *; try discriminate; [reflexivity|]. f_equal. apply IH. lia.
  - rewrite <- L. destruct a' as [|x [|x' a']]; cbn [length] in *.
    + destruct b as [|y [|y' b]]; cbn [length] in *; try discriminate; try lia. cbn in H. assert (r = []) by congruence. now subst r.
    + assert (r = map (fun y => i64 (x + y)) b) by (destruct b; congruence). subst r. now rewrite map_length.
    + destruct b as [|y [|y' b]]; try discriminate. assert (r = map (fun x => i64 (x + y)) (x :: x' :: a')) by congruence. subst r. now rewrite map_length.
Qed.
Lemma rw_fc b l : fe_fc b = Ok l -> rowwise l.
Proof.
  unfold fe_fc. intros H. ok_inv H. destruct (fn_tensor a0) as [| |w]; try discriminate. destruct (fn_tensor a1) as [|bv|]; try discriminate.
  ok_inv H. injection H as <-. apply rw_intro; intros n m W; [apply (by_err _ GF n kind_GF); [intros; eexists; reflexivity|exact W]|].
  rename a5 into k.
  apply (by_rows _ GI GI n (fun x => match fc_infer k (T1 x) with Ok (T1 y) => Ok y | _ => Err EValueError end) kind_GI kind_GI); [| |exact W].
  - intros m' NE L. clear W.
    transitivity (do t <- fc_infer k (T2 m'); match t with T2 y => Ok (GI y) | _ => Err EAssertionError end); [reflexivity|].
    assert (G : forall ys, fc_infer k (T2 m') = Ok (T2 ys) <-> mapM (fun x => match fc_infer k (T1 x) with Ok (T1 y) => Ok y | _ => Err EValueError end) m' = Ok ys).
    { intros ys. rewrite mapM_inv. rewrite C16_batch_is_rowwise. clear. split; intros F.
      - induction F as [|x y xs ys' Hx F IH]; [constructor|]. constructor; [|exact IH]. rewrite Hx. reflexivity.
      - induction F as [|x y xs ys' Hx F IH]; [constructor|]. constructor; [|exact IH]. revert Hx.
        destruct (fc_infer k (T1 x)) as [[| |]|]; intros Hx; try discriminate. injection Hx as ->. reflexivity. }
    destruct (mapM _ m') as [ys|e] eqn:M.
    + rewrite (proj2 (G ys) eq_refl). reflexivity.
    + cbn [rbind]. assert (NG : forall ys, fc_infer k (T2 m') <> Ok (T2 ys)) by (intros ys X; apply G in X; discriminate).
      assert (Ee : e = EValueError).
      { eapply mapM_err; [|exact M]. intros x e'. cbn beta. destruct (fc_infer k (T1 x)) as [[| |]|]; congruence. }
      subst e. destruct (fc_infer k (T2 m')) as [t|e] eqn:X.
      * exfalso. cbn [fc_infer] in X. destruct (fc_acc_2d k m') as [q|]; [|discriminate]. cbn [rbind] in X. apply (NG (map (map (fc_requant k)) q)). congruence.
      * cbn [rbind]. f_equal. cbn [fc_infer] in X. destruct (fc_acc_2d k m') as [q|e'] eqn:Q; [discriminate|]. cbn [rbind] in X. assert (e' = e) by congruence. subst e'.
        unfold fc_acc_2d in Q. destruct (mapM (fun x => mapM _ (fc_w k)) m') as [q|e'] eqn:Q'; cbn [rbind] in Q.
        -- eapply mapM_err; [|exact Q]. intros r e' B. unfold badd64 in B. destruct (length r =? length (fc_bias k))%nat; [discriminate|].
           destruct r as [|u [|u' r]]; destruct (fc_bias k) as [|v [|v' bb]]; congruence.
        -- assert (e' = e) by congruence. subst e'. eapply mapM_err; [|exact Q']. intros x e' B. eapply mapM_err; [|exact B]. intros u e'' D. eapply dot64_err; exact D.
  - destruct (badd64_len (map (fun _ => 0) (fc_w k)) (fc_bias k)) as (n' & Hn). exists n'. intros x y _. cbn [fc_infer]. unfold fc_acc_1d.
    destruct (mapM (fun w0 => dot64 w0 (fc_center k x)) (fc_w k)) as [q|] eqn:M; [|discriminate]. cbn [rbind].
    destruct (badd64 q (fc_bias k)) as [r|] eqn:B; [|discriminate]. cbn [rbind]. intros Y. assert (y = map (fc_requant k) r) by congruence. subst y.
    rewrite map_length. eapply Hn; [|exact B]. rewrite map_length. eapply mapM_len; exact M.
Qed.
Lemma rw_lut b l : fe_lut b = Ok l -> rowwise l.
Proof.
  unfold fe_lut. intros H. ok_inv H. injection H as <-. apply rw_intro; intros n m W; [apply (by_err _ GF n kind_GF); [intros; eexists; reflexivity|exact W]|].
  destruct n as [|n].
  - assert (Z : forall m', Forall (fun x => length x = 0%nat) m' -> concat m' = @nil Z).
    { intros m' F. induction F as [|x m' Hx F IH]; [reflexivity|]. cbn [concat]. rewrite IH. destruct x; [reflexivity|discriminate]. }
    destruct W as [NE W]. split; [split|].
    + intros y. rewrite (Z m W). discriminate.
    + intros A. destruct m as [|x m]; [contradiction|]. destruct (A (GI [x]) ltac:(now left)) as (b0 & Hb). rewrite (Z [x]) in Hb; [discriminate|].
      constructor; [now inversion W|constructor].
    + exists 0%nat. intros y. rewrite (Z m W). discriminate.
  - apply (by_rows _ GI GI (S n) (fun x => mapM (fun c => lookup (la_table a0) (c + la_offset a0)) x) kind_GI kind_GI); [| |exact W].
    + intros m' NE L. destruct m' as [|[|z x] m']; [contradiction|inversion L; discriminate|]. reflexivity.
    + exists (S n). intros x y L M. rewrite <- L. eapply mapM_len; exact M.
Qed.
Lemma rw_id : rowwise (fun v => Ok v).
Proof.
  intros n v W. split; [split|].
  - intros y Y. assert (y = v) by congruence. subst y. induction (rows v) as [|a r IH]; constructor; [reflexivity|exact IH].
  - eauto.
  - exists n. intros y Y. congruence.
Qed.

(** *** ONNX *)
Lemma rw_fo_quantize b l : fo_quantize b = Ok l -> rowwise l.
Proof.
  unfold fo_quantize. intros H. ok_inv H. injection H as <-. apply rw_intro; intros n m W.
  - eapply (by_map _ GF GI n _ kind_GF kind_GI); [reflexivity|exact W].
  - apply (by_err _ GI n kind_GI); [intros; eexists; reflexivity|exact W].
Qed.
Lemma rw_fo_dequantize b l : fo_dequantize b = Ok l -> rowwise l.
Proof.
  unfold fo_dequantize. intros H. ok_inv H. injection H as <-. apply rw_intro; intros n m W.
  - apply (by_err _ GF n kind_GF); [intros; eexists; reflexivity|exact W].
  - eapply (by_map _ GI GF n _ kind_GI kind_GF); [reflexivity|exact W].
Qed.
Lemma rw_fo_sigmoid sg b l : fo_sigmoid sg b = Ok l -> rowwise l.
Proof.
  unfold fo_sigmoid. intros H. ok_inv H. injection H as <-. apply rw_intro; intros n m W.
  - apply (by_err _ GF n kind_GF); [intros; eexists; reflexivity|exact W].
  - eapply (by_map _ GI GI n _ kind_GI kind_GI); [reflexivity|exact W].
Qed.
Lemma rw_fo_tanh th l : fo_tanh th = Ok l -> rowwise l.
Proof.
  unfold fo_tanh. intros H. injection H as <-. apply rw_intro; intros n m W.
  - eapply (by_map _ GF GF n _ kind_GF kind_GF); [reflexivity|exact W].
  - apply (by_err _ GI n kind_GI); [intros; eexists; reflexivity|exact W].
Qed.
Lemma rw_fo_matmul nan b l : fo_matmul nan b = Ok l -> rowwise l.
Proof.
  unfold fo_matmul. intros H. ok_inv H. destruct (fn_tensor a0) as [| |w]; try discriminate. ok_inv H. injection H as <-. rename a5 into k.
  apply rw_intro; intros n m W; [apply (by_err _ GF n kind_GF); [intros; eexists; reflexivity|exact W]|].
  apply (by_rows _ GI GI n (qmm_row_f nan k) kind_GI kind_GI); [| |exact W].
  - intros m' _ _. cbn [qmm_infer_f]. destruct (mapM (qmm_row_f nan k) m'); reflexivity.
  - exists (length (fm_w k)). intros x y _. unfold qmm_row_f. destruct (mapM _ (fm_w k)) as [q|] eqn:M; [|discriminate]. cbn [rbind].
    intros Y. assert (y = map (qmm1_f nan k) q) by congruence. subst y. rewrite map_length. eapply mapM_len; exact M.
Qed.
(** the addition of a vector: three ways in which its length can fit *)
Definition fit_width (n k : nat) : option nat :=
  if (n =? k)%nat then Some n else if (n =? 1)%nat then Some k else if (k =? 1)%nat then Some n else None.
Lemma bshape_mat_vec r n k : bshape [r; n] [k] = option_map (fun w => [r; w]) (fit_width n k).
Proof.
  unfold bshape, fit_width. cbn [rev app bshape_rev]. destruct (n =? k)%nat; [reflexivity|]. destruct (n =? 1)%nat; [reflexivity|]. destruct (k =? 1)%nat; reflexivity.
Qed.
Lemma add_vec_rows nan q bv n X : qa_b q = nd_of_list 0 bv -> X <> [] -> Forall (fun x => length x = n) X ->
  (do r <- qadd_infer_f nan q (nd_of_mat X); rows2 r) =
  match fit_width n (length bv) with
  | None => Err EValueError
  | Some w => Ok (map (fun x => map (fun j => qadd1_f nan q (nth (if (n =? 1)%nat then 0 else j)%nat x 0) (nth (if (length bv =? 1)%nat then 0 else j)%nat bv 0)) (seq 0 w)) X)
  end.
Proof.
  intros Eq NE L. assert (H0 : length (hd [] X) = n) by (destruct X as [|x X]; [contradiction|]; now inversion L).
  unfold qadd_infer_f, nd_bin. rewrite Eq. cbn [nd_of_list nd_of_mat nd_shape]. rewrite H0, bshape_mat_vec.
  destruct (fit_width n (length bv)) as [w|]; [|reflexivity]. cbn [option_map rbind]. unfold rows2. cbn [nd_shape nd_get]. f_equal.
  rewrite <- (PropFloatOnnxNet.map_seq_nth (fun x => map (fun j => qadd1_f nan q (nth (if (n =? 1)%nat then 0 else j)%nat x 0) (nth (if (length bv =? 1)%nat then 0 else j)%nat bv 0)) (seq 0 w)) X []).
  apply map_ext_in. intros i Hi. apply in_seq in Hi. apply map_ext_in. intros j Hj. unfold bidx. cbn [length skipn Nat.sub combine map fst snd].
  f_equal.
  - destruct (Nat.eqb_spec (length X) 1) as [E1|_]; [replace i with 0%nat by lia|]; cbn [nth]; reflexivity.
Qed.
Lemma rw_fo_add nan b l : fo_add nan b = Ok l -> (forall w, nth_error (fb_in b) 1 = Some w -> forall m, fn_tensor w <> PMat m) -> rowwise l.
Proof.
  unfold fo_add. intros H NV. ok_inv H.
  assert (V : exists bv, fn_tensor a0 = PVec bv \/ fn_tensor a0 = PNone).
  { assert (N1 : nth_error (fb_in b) 1 = Some a0).
    { unfold py_index in E0. cbn [Z.ltb Z.compare] in E0. change (Z.to_nat 1) with 1%nat in E0. destruct (_ || _) in E0; [discriminate|].
      destruct (nth_error (fb_in b) 1); congruence. }
    specialize (NV a0 N1). destruct (fn_tensor a0) as [|bv|mm]; [exists []; now right|exists bv; now left|exfalso; now apply (NV mm)]. }
  destruct V as (bv & [V|V]); rewrite V in H; cbn [nd_of_pt] in H; [|discriminate]. ok_inv H. injection H as <-.
  set (q := mkqadd _ _ _ _ _ _ _). apply rw_intro; intros n m W; [apply (by_err _ GF n kind_GF); [intros; eexists; reflexivity|exact W]|].
  apply (by_rows _ GI GI n (fun x => match fit_width n (length bv) with
    | None => Err EValueError
    | Some w => Ok (map (fun j => qadd1_f nan q (nth (if (n =? 1)%nat then 0 else j)%nat x 0) (nth (if (length bv =? 1)%nat then 0 else j)%nat bv 0)) (seq 0 w))
    end) kind_GI kind_GI); [| |exact W].
  - intros m' NE L. pose proof (add_vec_rows nan q bv n m' eq_refl NE L) as A. destruct (fit_width n (length bv)) as [w|].
    + rewrite mapM_pure. cbn [rbind]. destruct (qadd_infer_f nan q (nd_of_mat m')) as [r|]; [|discriminate]. cbn [rbind] in *. rewrite A. reflexivity.
    + destruct m' as [|x m']; [contradiction|]. cbn [mapM rbind]. destruct (qadd_infer_f nan q (nd_of_mat (x :: m'))) as [r|]; cbn [rbind] in *; [rewrite A; reflexivity|congruence].
  - exists (match fit_width n (length bv) with Some w => w | None => 0%nat end). intros x y _. destruct (fit_width n (length bv)) as [w|]; [|discriminate].
    intros Y. match type of Y with Ok ?u = _ => assert (y = u) by congruence end. subst y. now rewrite map_length, seq_length.
Qed.

(** *** A whole network *)
Lemma run_inter {V} : forall (ls : list (layer V)) x i j, snd (run_layers ls x i) = snd (run_layers ls x j).
Proof. induction ls as [|l ls IH]; intros x i j; cbn [run_layers snd]; [reflexivity|]. destruct (l x); [apply IH|reflexivity]. Qed.
Lemma rw_run : forall ls, Forall rowwise ls -> rowwise (fun v => snd (run_layers ls v [])).
Proof.
  induction ls as [|l ls IH]; intros F; [exact rw_id|]. inversion F as [|? ? Fl Fls]; subst. specialize (IH Fls). intros n v W.
  assert (S1 : forall u, snd (run_layers (l :: ls) u []) = (do y <- l u; snd (run_layers ls y []))).
  { intros u. cbn [run_layers]. destruct (l u); [|reflexivity]. cbn [rbind]. apply run_inter. }
  destruct (Fl n v W) as ((A & B) & n1 & C). apply (fine_ext _ _ _ S1). split; [split|].
  - intros y. destruct (l v) as [u|] eqn:E; [|discriminate]. cbn [rbind]. intros Y. specialize (A u eq_refl). destruct (IH n1 u (C u eq_refl)) as ((A' & _) & _).
    specialize (A' y Y). clear - A A'. revert A'. generalize (rows y). induction A as [|a b r s H _ IHr]; intros t A'; inversion A' as [|? c ? t' H' A'']; subst; constructor.
    + rewrite H. exact H'.
    + now apply IHr.
  - intros G. destruct (B ltac:(intros a Ha; destruct (G a Ha) as (b & Hb); destruct (l a); [eauto|discriminate])) as (u & E). rewrite E. cbn [rbind].
    specialize (A u E). destruct (IH n1 u (C u E)) as ((_ & B') & _). apply B'. intros b Hb. clear - A G Hb.
    induction A as [|a c r s H _ IHr]; [contradiction|]. destruct Hb as [<-|Hb].
    + destruct (G a ltac:(now left)) as (z & Hz). rewrite H in Hz. eauto.
    + apply IHr; [|exact Hb]. intros a' Ha'. apply G. now right.
  - destruct (l v) as [u|] eqn:E; cbn [rbind].
    + destruct (IH n1 u (C u eq_refl)) as (_ & n2 & C2). exists n2. exact C2.
    + exists 0%nat. discriminate.
Qed.
Lemma rw_net {O} (b : builders O fval) (j : jnet O) toi8 : (forall build op l, In op (jt_graph j) -> get_engine b (jt_engine j) = Ok build -> build op = Ok l -> rowwise l) ->
  (forall v z q, exists e, toi8 v z q = Err e) ->
  rowwise (fun v => do n <- seq_init b j; snd (seq_infer toi8 n v)).
Proof.
  intros R T8. destruct (seq_init b j) as [nt|e] eqn:E; cbn [rbind].
  2:{ apply rw_intro; intros n m W; [apply (by_err _ GF n kind_GF)|apply (by_err _ GI n kind_GI)]; try exact W; intros; eexists; reflexivity. }
  assert (F : Forall rowwise (sn_layers nt)).
  { unfold seq_init in E. destruct (py_index (jt_input j) 0) as [[i|]|]; cbn [rbind] in E; try discriminate; destruct (py_index (jt_output j) 0) as [[o|]|]; cbn [rbind] in E; try discriminate.
    destruct (py_index (jt_graph j) 0) as [g0|]; cbn [rbind] in E; [|discriminate]. destruct (get_engine b (jt_engine j)) as [build|] eqn:Eb; cbn [rbind] in E; [|discriminate].
    destruct (mapM build (jt_graph j)) as [ls|] eqn:M; cbn [rbind] in E; [|discriminate].
    match type of E with Ok ?u = _ => assert (nt = u) by congruence end. subst nt. cbn [sn_layers]. apply mapM_inv in M.
    assert (R' : forall op l, In op (jt_graph j) -> build op = Ok l -> rowwise l) by (intros op l I; now apply (R build op l I)).
    clear - M R'. induction M as [|op l ops ls H _ IH]; constructor; [apply (R' op); [now left|exact H]|]. apply IH. intros op' l' I. apply R'. now right. }
  assert (S2 : forall v, snd (seq_infer toi8 nt v) = if sn_quant nt then snd (run_layers (sn_layers nt) v []) else match toi8 v (or_Z (sn_in_zp nt) 0) (or_Q (sn_in_s nt) 1) with Err e => Err e | Ok u => snd (run_layers (sn_layers nt) u []) end).
  { intros v. unfold seq_infer. destruct (sn_quant nt).
    - destruct (run_layers (sn_layers nt) v []); reflexivity.
    - destruct (toi8 v _ _) as [u|]; [destruct (run_layers (sn_layers nt) u []); reflexivity|reflexivity]. }
  intros n v W. apply (fine_ext _ _ _ S2). destruct (sn_quant nt); [exact (rw_run _ F n v W)|].
  assert (Fe : rowwise (fun v => match toi8 v (or_Z (sn_in_zp nt) 0) (or_Q (sn_in_s nt) 1) with Err e => Err e | Ok u => snd (run_layers (sn_layers nt) u []) end)); [|exact (Fe n v W)].
  apply rw_intro; intros n' m W'.
  - apply (by_err _ GF n' kind_GF); [|exact W']. intros m'. destruct (T8 (GF m') (or_Z (sn_in_zp nt) 0) (or_Q (sn_in_s nt) 1)) as (e & H1). exists e. cbn beta. now rewrite H1.
  - apply (by_err _ GI n' kind_GI); [|exact W']. intros m'. destruct (T8 (GI m') (or_Z (sn_in_zp nt) 0) (or_Q (sn_in_s nt) 1)) as (e & H1). exists e. cbn beta. now rewrite H1.
Qed.
Lemma rw_fe j : rowwise (fun v => do n <- seq_init fe_builders j; snd (seq_infer (fun _ _ _ => Err ENotImplemented) n v)).
Proof.
  apply rw_net; [|intros; eexists; reflexivity]. intros build op l _ G H. unfold get_engine in G.
  destruct (chars_eqb _ (chars_of "TFLITE")); [|destruct (chars_eqb _ (chars_of "ONNX")); [|discriminate]].
  - injection G as <-. unfold build_layer in H. destruct (build_layer_kind (jo_type op)) as [k|]; [|discriminate]. cbn [rbind fe_builders b_tflite] in H.
    destruct k; try discriminate.
    all: first [now apply (rw_lut (jo_body op))|now apply (rw_fc (jo_body op))|now apply (rw_quantize (jo_body op))|now apply (rw_dequantize (jo_body op))
      |destruct (py_index (fb_in (jo_body op)) 0); [|discriminate]; cbn [rbind] in H; injection H as <-; exact rw_id].
  - injection G as <-. unfold build_operator in H. destruct (build_operator_kind (jo_type op)); discriminate.
Qed.
(** Every addition in the file adds a vector: the second node of each QLinearAdd is not a matrix. *)
Definition vector_adds (j : jnet fbody) : Prop := forall op w, In op (jt_graph j) -> build_operator_kind (jo_type op) = Ok OAdd ->
  nth_error (fb_in (jo_body op)) 1 = Some w -> forall m, fn_tensor w <> PMat m.
Lemma rw_fo sg th nan j : vector_adds j -> rowwise (fun v => do n <- seq_init (fo_builders sg th nan) j; snd (seq_infer (fun _ _ _ => Err ENotImplemented) n v)).
Proof.
  intros V. apply rw_net; [|intros; eexists; reflexivity]. intros build op l I G H. unfold get_engine in G.
  destruct (chars_eqb _ (chars_of "TFLITE")); [|destruct (chars_eqb _ (chars_of "ONNX")); [|discriminate]].
  - injection G as <-. unfold build_layer in H. destruct (build_layer_kind (jo_type op)); discriminate.
  - injection G as <-. unfold build_operator in H. destruct (build_operator_kind (jo_type op)) as [k|] eqn:K; [|discriminate]. cbn [rbind fo_builders b_onnx] in H.
    destruct k; try discriminate.
    all: first [now apply (rw_lut (jo_body op))|now apply (rw_fo_quantize (jo_body op))|now apply (rw_fo_dequantize (jo_body op))
      |now apply (rw_fo_sigmoid sg (jo_body op))|now apply (rw_fo_tanh th)|now apply (rw_fo_matmul nan (jo_body op))
      |apply (rw_fo_add nan (jo_body op) l H); intros w; now apply (V op w I K)].
Qed.

(** ** C95 *)
Definition rectangular {A} (n : nat) (batch : list (list A)) : Prop := batch <> [] /\ forall x, In x batch -> length x = n.
(** [run] answers batches row by row: the rows of the answer are the answers to the rows given alone, and no row makes another fail. *)
Definition answers_rows (run : list (list f64) -> res fval) : Prop := forall n batch, rectangular n batch ->
  (forall y, run batch = Ok y -> Forall2 (fun x z => run [x] = Ok z) batch (rows y)) /\
  ((forall x, In x batch -> exists z, run [x] = Ok z) -> exists y, run batch = Ok y).
Lemma rowwise_answers f : rowwise f -> answers_rows (fun batch => f (GF batch)).
Proof.
  intros R n batch (NE & L). destruct (R n (GF batch)) as ((A & B) & _); [split; [exact NE|now apply Forall_forall]|]. cbn [rows] in A, B. split.
  - intros y Y. specialize (A y Y). clear - A. remember (map (fun x => GF [x]) batch) as l eqn:E. revert batch E.
    induction A as [|a b r s H _ IH]; intros [|x batch] E; try discriminate; constructor; cbn [map] in E.
    + injection E as -> _. exact H.
    + apply IH. congruence.
  - intros G. apply B. intros a Ha. apply in_map_iff in Ha as (x & <- & Hx). now apply G.
Qed.
Lemma answers_split run : answers_rows run -> forall n a b y, rectangular n a -> rectangular n b -> run (a ++ b) = Ok y ->
  exists ya yb, run a = Ok ya /\ run b = Ok yb /\ rows y = rows ya ++ rows yb.
Proof.
  intros R n a b y (NA & LA) (NB & LB) Y.
  assert (RAB : rectangular n (a ++ b)).
  { split; [destruct a; [contradiction|discriminate]|]. intros x Hx. apply in_app_or in Hx as [Hx|Hx]; auto. }
  destruct (R n _ RAB) as (A & _). specialize (A y Y). apply Forall2_app_inv_l in A as (ra & rb & FA & FB & E).
  assert (G : forall c r, rectangular n c -> Forall2 (fun x z => run [x] = Ok z) c r -> exists v, run c = Ok v /\ rows v = r).
  { intros c r Rc F. destruct (R n c Rc) as (A & B). destruct B as (v & V).
    - intros x Hx. clear - F Hx. induction F as [|x' z c r H _ IH]; [contradiction|]. destruct Hx as [<-|Hx]; [eauto|now apply IH].
    - exists v. split; [exact V|]. specialize (A v V). clear - A F. revert r F. induction A as [|x z c s H _ IH]; intros r F; inversion F as [|? z' ? r' H' F']; subst; [reflexivity|].
      f_equal; [congruence|now apply IH]. }
  destruct (G a ra (conj NA LA) FA) as (ya & Ya & Ea). destruct (G b rb (conj NB LB) FB) as (yb & Yb & Eb).
  exists ya, yb. subst. auto.
Qed.

Theorem C95_dense_batch : forall j, answers_rows (fe_execute j).
Proof. intros j. exact (rowwise_answers _ (rw_fe j)). Qed.
Theorem C95_onnx_batch : forall sg th nan j, vector_adds j -> answers_rows (fo_execute sg th nan j).
Proof. intros sg th nan j V. exact (rowwise_answers _ (rw_fo sg th nan j V)). Qed.
(** Cutting a batch in two and putting the answers together changes nothing. *)
Theorem C95_dense_split : forall j n a b y, rectangular n a -> rectangular n b -> fe_execute j (a ++ b) = Ok y ->
  exists ya yb, fe_execute j a = Ok ya /\ fe_execute j b = Ok yb /\ rows y = rows ya ++ rows yb.
Proof. intros j. exact (answers_split _ (C95_dense_batch j)). Qed.
Theorem C95_onnx_split : forall sg th nan j n a b y, vector_adds j -> rectangular n a -> rectangular n b -> fo_execute sg th nan j (a ++ b) = Ok y ->
  exists ya yb, fo_execute sg th nan j a = Ok ya /\ fo_execute sg th nan j b = Ok yb /\ rows y = rows ya ++ rows yb.
Proof. intros sg th nan j n a b y V. exact (answers_split _ (C95_onnx_batch sg th nan j V) n a b y). Qed.

(** A file whose addition has one row per sample of the batch it was exported with is answered by position. *)
Definition mat_net : jnet fbody :=
  mkjnet (chars_of "onnx") [ex_op "QuantizeLinear" [on_node on_p0 PNone] [];
    ex_op "QLinearAdd" [on_node on_p0 PNone; on_w (PMat [[110; 40]; [164; 68]]); on_node on_p1 PNone] [];
    ex_op "DequantizeLinear" [on_node on_p1 PNone] []] (jt_input on_net) (jt_output on_net).
Theorem C95_matrix_addition_refuted : exists j x x' y, forall sg th nan,
  fo_execute sg th nan j [x; x'] = Ok y /\ length (rows y) = 2%nat /\
  (exists y1, fo_execute sg th nan j [x] = Ok y1 /\ length (rows y1) = 2%nat) /\
  (exists y', fo_execute sg th nan j [x'; x] = Ok y' /\ rows y' <> rev (rows y)).
Proof.
  exists mat_net, [Fin 3; Fin (1#2)]%Q, [Fin 1; Fin 2]%Q. eexists. intros sg th nan.
  split; [vm_compute; reflexivity|]. split; [reflexivity|]. split; eexists; (split; [vm_compute; reflexivity|]); [reflexivity|vm_compute; discriminate].
Qed.
Example C95_example : vector_adds on_net /\ rectangular 2 [[Fin 3%Q; Fin (1#2)]; [Fin (-7)%Q; Fin 100%Q]] /\
  (forall th nan, exists y, fo_execute ex_g th nan on_net [[Fin 3%Q; Fin (1#2)]; [Fin (-7)%Q; Fin 100%Q]] = Ok y /\ rows y = [GF [[Fin (25#4)]]; GF [[Fin 0%Q]]]) /\
  (exists y, fe_execute ex_net [[Fin (1#2); Fin (-1)]; [Fin 3; Fin 100]] = Ok y /\ rows y = [GF [[Fin (11#4)]]; GF [[Fin (-49#4)]]])%Q.
Proof.
  split; [|split; [|split]].
  - intros op w I K E m. assert (D : forall l : list (jop fbody), In op l -> forallb (fun o => match build_operator_kind (jo_type o), nth_error (fb_in (jo_body o)) 1 with
      | Ok OAdd, Some w' => match fn_tensor w' with PMat _ => false | _ => true end | _, _ => true end) l = true -> fn_tensor w <> PMat m).
    { intros l Hl F. rewrite forallb_forall in F. specialize (F op Hl). rewrite K, E in F. intros X. rewrite X in F. discriminate. }
    apply (D (jt_graph on_net) I). vm_compute. reflexivity.
  - split; [discriminate|]. intros x [<-|[<-|[]]]; reflexivity.
  - intros th nan. eexists. split; [apply C91_example_run|reflexivity].
  - eexists. split; [apply C75_example_run|reflexivity].
Qed.
