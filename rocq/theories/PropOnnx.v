(** Property C23 (ONNX add/matmul), C53 (softmax layers). *)
From Verif Require Import Base BaseProofs DtypeModel QuantModel QuantProofs FcModel FcProofs FcLayer OnnxModel PropCore PropFc.
From Coq Require Import Lqa.
Open Scope Z_scope.
Open Scope list_scope.

Lemma i32_add_r a b : i32 (a + i32 b) = i32 (a + b).
Proof. apply wrap_s_eq. rewrite Zplus_mod, (wrap_s_mod 32) by lia. rewrite <- Zplus_mod. reflexivity. Qed.
Lemma i32_add_l a b : i32 (i32 a + b) = i32 (a + b).
Proof. rewrite Z.add_comm, i32_add_r. f_equal. lia. Qed.
Lemma i32_mul_l a b : i32 (i32 a * b) = i32 (a * b).
Proof. apply wrap_s_eq. rewrite Zmult_mod, (wrap_s_mod 32) by lia. rewrite <- Zmult_mod. reflexivity. Qed.
Lemma i32_mul_r a b : i32 (a * i32 b) = i32 (a * b).
Proof. rewrite Z.mul_comm, i32_mul_l. f_equal. lia. Qed.
Lemma i32_sub_l a b : i32 (i32 a - b) = i32 (a - b).
Proof. apply wrap_s_eq. rewrite Zminus_mod, (wrap_s_mod 32) by lia. rewrite <- Zminus_mod. reflexivity. Qed.
Lemma i32_id a : - 2 ^ 31 <= a <= 2 ^ 31 - 1 -> i32 a = a.
Proof. intros H. apply wrap_s_id; [lia|exact H]. Qed.

Definition uint8 (q : Z) : Prop := 0 <= q <= 255.

(** round half to even, then clip: within half a unit of the clipped real value. *)
Lemma round_clip r z v : v = clipZ 0 255 (Qround_even r + z) ->
  (Qabs (inject_Z v - clampQ 0 255 (r + inject_Z z)) <= 1#2)%Q.
Proof.
  intros ->. rewrite <- clamp_clip by lia. apply clampQ_close; [lia|].
  rewrite inject_Z_plus. pose proof (Qround_even_near r) as H.
  apply Qabs_Qle_condition in H. apply Qabs_Qle_condition. split; lra.
Qed.
Lemma clampQ_id lo hi r : (inject_Z lo <= r <= inject_Z hi)%Q -> clampQ lo hi r = r.
Proof.
  intros [A B]. unfold clampQ. destruct (Qlt_le_dec r (inject_Z lo)); [lra|].
  destruct (Qlt_le_dec (inject_Z hi) r); [lra|reflexivity].
Qed.

(** ** C23, addition.  The real-valued reference of one element. *)
Definition add_ref (is : Q) (iz : Z) (bs : Q) (bz : Z) (os : Q) (oz : Z) (x b : Z) : Q :=
  ((is * inject_Z (x - iz) + bs * inject_Z (b - bz)) / os + inject_Z oz)%Q.

Lemma u8_center x z : uint8 x -> uint8 z -> i32 (i32 x - z) = x - z.
Proof. unfold uint8. intros A B. rewrite i32_sub_l. apply i32_id. lia. Qed.

Theorem C23_add_half_unit : forall is iz b bs bz os oz x,
  uint8 iz -> uint8 bz -> (forall i, uint8 (nd_get x i)) -> (forall i, uint8 (nd_get b i)) ->
  forall r, qadd_infer (mkqadd is iz b bs bz os oz) x = Ok r ->
  bshape (nd_shape x) (nd_shape b) = Some (nd_shape r) /\
  forall idx,
    let q := nd_get r idx in
    let ref := add_ref is iz bs bz os oz (nd_get x (bidx (nd_shape x) idx)) (nd_get b (bidx (nd_shape b) idx)) in
    uint8 q /\
    (Qabs (inject_Z q - clampQ 0 255 ref) <= 1#2)%Q /\
    ((0 <= ref <= 255)%Q -> (Qabs (inject_Z q - ref) <= 1#2)%Q).
Proof.
  intros is iz b bs bz os oz x Hiz Hbz Hx Hb r H. unfold qadd_infer, nd_bin in H. cbn [qa_b] in H.
  destruct (bshape (nd_shape x) (nd_shape b)) as [s|] eqn:S; [|discriminate]. injection H as <-.
  split; [reflexivity|]. intros idx q ref. cbn [nd_get] in q.
  assert (Q1 : q = clipZ 0 255 (Qround_even ((is * inject_Z (nd_get x (bidx (nd_shape x) idx) - iz) +
             bs * inject_Z (nd_get b (bidx (nd_shape b) idx) - bz)) / os) + oz)).
  { unfold q, qadd1. cbn [qa_is qa_izp qa_bs qa_bzp qa_os qa_ozp].
    rewrite !u8_center by auto. reflexivity. }
  apply round_clip in Q1 as Q2. fold (add_ref is iz bs bz os oz (nd_get x (bidx (nd_shape x) idx)) (nd_get b (bidx (nd_shape b) idx))) in Q2.
  fold ref in Q2. split; [rewrite Q1; apply clipZ_range; lia|]. split; [exact Q2|].
  intros R. rewrite clampQ_id in Q2 by exact R. exact Q2.
Qed.
(** The code is exactly the round-half-even of the affine result, clipped. *)
Theorem C23_add_exact : forall is iz b bs bz os oz x r,
  uint8 iz -> uint8 bz -> (forall i, uint8 (nd_get x i)) -> (forall i, uint8 (nd_get b i)) ->
  qadd_infer (mkqadd is iz b bs bz os oz) x = Ok r -> forall idx,
  nd_get r idx = clamp 0 255 (Qround_even (add_ref is iz bs bz os 0 (nd_get x (bidx (nd_shape x) idx))
                                             (nd_get b (bidx (nd_shape b) idx))) + oz).
Proof.
  intros is iz b bs bz os oz x r Hiz Hbz Hx Hb H idx. unfold qadd_infer, nd_bin in H. cbn [qa_b] in H.
  destruct (bshape (nd_shape x) (nd_shape b)) as [s|] eqn:S; [|discriminate]. injection H as <-.
  cbn [nd_get]. unfold qadd1. cbn [qa_is qa_izp qa_bs qa_bzp qa_os qa_ozp].
  rewrite !u8_center by auto. rewrite clamp_clip by lia. f_equal. f_equal.
  unfold add_ref. set (y := (_ / os)%Q).
  assert (E : (y + inject_Z 0 == y)%Q) by (change (inject_Z 0) with 0%Q; lra).
  apply Z.le_antisymm; apply Qround_even_mono; rewrite E; apply Qle_refl.
Qed.
(** Dequantized error: at most half an output step when the exact sum is representable. *)
Theorem C23_add_dequantized : forall is iz b bs bz os oz x r,
  (0 < os)%Q -> uint8 iz -> uint8 bz -> uint8 oz -> (forall i, uint8 (nd_get x i)) -> (forall i, uint8 (nd_get b i)) ->
  qadd_infer (mkqadd is iz b bs bz os oz) x = Ok r -> forall idx,
  let real a s z := nd_get (dequantize_linear s z a) in
  let sum := (real x is iz (bidx (nd_shape x) idx) + real b bs bz (bidx (nd_shape b) idx))%Q in
  (os * inject_Z (0 - oz) <= sum <= os * inject_Z (255 - oz))%Q ->
  (Qabs (real r os oz idx - sum) <= os * (1#2))%Q.
Proof.
  intros is iz b bs bz os oz x r Ho Hiz Hbz Hoz Hx Hb H idx real sum R.
  destruct (C23_add_half_unit is iz b bs bz os oz x Hiz Hbz Hx Hb r H) as [_ T].
  destruct (T idx) as (U & _ & B). clear T.
  assert (D : forall a s z i, uint8 z -> uint8 (nd_get a i) -> real a s z i = (inject_Z (nd_get a i - z) * s)%Q).
  { intros a s z i Z1 A1. unfold real, dequantize_linear. rewrite dequantize_get.
    apply (dequant1_nowrap u8); [unfold fits_i32; cbn [gmin gmax u8]; lia|unfold zp_nowrap, uint8 in *; cbn [gmin gmax u8]; lia|exact A1]. }
  set (ref := add_ref _ _ _ _ _ _ _ _) in B.
  assert (E : (sum == (ref - inject_Z oz) * os)%Q).
  { unfold sum, ref, add_ref. rewrite !D by auto. field. lra. }
  rewrite D by auto.
  assert (R0 : (0 <= ref <= 255)%Q).
  { rewrite !inject_Z_minus in R. change (inject_Z 0) with 0%Q in R. change (inject_Z 255) with 255%Q in R.
    rewrite E in R. destruct R as [R1 R2].
    assert (A1 : ((0 - inject_Z oz) * os <= (ref - inject_Z oz) * os)%Q) by lra.
    assert (A2 : ((ref - inject_Z oz) * os <= (255 - inject_Z oz) * os)%Q) by lra.
    apply Qmult_lt_0_le_reg_r in A1; [|exact Ho]. apply Qmult_lt_0_le_reg_r in A2; [|exact Ho]. split; lra. }
  specialize (B R0).
  assert (G : (inject_Z (nd_get r idx - oz) * os - sum == (inject_Z (nd_get r idx) - ref) * os)%Q).
  { rewrite E, inject_Z_minus. ring. }
  rewrite G, Qabs_Qmult, (Qabs_pos os) by lra. rewrite (Qmult_comm os). apply Qmult_le_compat_r; [exact B|lra].
Qed.
Theorem C23_add_bad_shapes : forall l x, bshape (nd_shape x) (nd_shape (qa_b l)) = None ->
  qadd_infer l x = Err EValueError.
Proof. intros l x H. unfold qadd_infer, nd_bin. now rewrite H. Qed.

(** ** C23, matrix product *)
Lemma dot32_ok zx zw x w : length w = length x ->
  dot32 (map (fun v => i32 (i32 v - zx)) x) (map (fun v => i32 (i32 v - zw)) w) =
  Ok (i32 (sumZ_upto (length x) (fun i => (nth i x 0 - zx) * (nth i w 0 - zw)))).
Proof.
  revert w; induction x as [|a x IH]; intros [|b w] H; simpl in H; try discriminate; [reflexivity|].
  cbn [map dot32]. rewrite IH by lia. cbn [rbind]. f_equal.
  unfold sumZ_upto, sum_upto. cbn [length seq map fold_right nth].
  rewrite <- seq_shift, map_map. cbn [nth].
  rewrite i32_add_r, i32_add_l, <- i32_add_l. rewrite (i32_sub_l a), (i32_sub_l b), i32_mul_l, i32_mul_r, i32_add_l.
  reflexivity.
Qed.
Lemma dot32_bad a b : length a <> length b -> dot32 a b = Err EValueError.
Proof.
  revert b; induction a as [|x a IH]; intros [|y b] H; simpl in *; try reflexivity; [lia|]. now rewrite IH by lia.
Qed.

Lemma Forall2_nth_error' {A B} (P : A -> B -> Prop) l l' : Forall2 P l l' -> length l' = length l /\
  forall j a b, nth_error l j = Some a -> nth_error l' j = Some b -> P a b.
Proof.
  induction 1 as [|x y l l' H _ (L & IH)]; [split; [reflexivity|intros [|j] a b E; discriminate]|].
  split; [simpl; lia|]. intros [|j] a b E1 E2; simpl in *; [congruence|eauto].
Qed.

(** [exact_acc] (PropFc) is sum_i (x_i - zx)(w_i - zw) + bias; here there is no bias. *)
Theorem C23_matmul_half_unit : forall is iz W ws wz os oz x,
  (forall w, In w W -> length w = length x) ->
  exists y, qmm_infer (qmm_build is iz W ws wz os oz) (T1 x) = Ok (T1 y) /\ length y = length W /\
  forall j w q, nth_error W j = Some w -> nth_error y j = Some q ->
    uint8 q /\
    let acc := exact_acc iz wz x w 0 in
    (- 2 ^ 31 <= acc <= 2 ^ 31 - 1 ->
     let ref := (is * ws / os * inject_Z acc + inject_Z oz)%Q in
     q = clamp 0 255 (Qround_even (is * ws / os * inject_Z acc) + oz) /\
     (Qabs (inject_Z q - clampQ 0 255 ref) <= 1#2)%Q /\
     ((0 <= ref <= 255)%Q -> (Qabs (inject_Z q - ref) <= 1#2)%Q)).
Proof.
  intros is iz W ws wz os oz x HW.
  set (l := qmm_build is iz W ws wz os oz).
  set (f := fun w => sumZ_upto (length x) (fun i => (nth i x 0 - iz) * (nth i w 0 - wz))).
  exists (map (fun w => qmm1 l (i32 (f w))) W).
  split; [|split; [apply map_length|]].
  - cbn [qmm_infer]. unfold qmm_row. change (qm_w l) with W. change (qm_izp l) with iz. change (qm_wzp l) with wz.
    rewrite (mapM_ok_map _ (fun w => i32 (f w))); [cbn [rbind]; now rewrite map_map|].
    intros w Hw. apply dot32_ok. auto.
  - intros j w q Hw Hq. rewrite nth_error_map, Hw in Hq. cbn in Hq. injection Hq as <-.
    split; [apply clipZ_range; lia|]. intros acc Hacc ref.
    assert (A : i32 (f w) = acc).
    { unfold acc, exact_acc, f in *. rewrite Z.add_0_r in *. apply i32_id. exact Hacc. }
    assert (E : qmm1 l (i32 (f w)) = clipZ 0 255 (Qround_even (is * ws / os * inject_Z acc) + oz)).
    { rewrite A. reflexivity. }
    split; [rewrite clamp_clip by lia; exact E|].
    apply round_clip in E as E2. fold ref in E2. split; [exact E2|].
    intros R. rewrite clampQ_id in E2 by exact R. exact E2.
Qed.
(** uint8 data never overflow the accumulator up to 33025 features. *)
Theorem C23_matmul_no_overflow : forall iz wz x w,
  uint8 iz -> uint8 wz -> (forall i, uint8 (nth i x 0)) -> (forall i, uint8 (nth i w 0)) ->
  Z.of_nat (length x) <= 33025 -> - 2 ^ 31 <= exact_acc iz wz x w 0 <= 2 ^ 31 - 1.
Proof.
  intros iz wz x w Hi Hw X W L. unfold exact_acc, sumZ_upto, sum_upto. rewrite Z.add_0_r.
  assert (G : forall l, Z.abs (fold_right Z.add 0 (map (fun i => (nth i x 0 - iz) * (nth i w 0 - wz)) l)) <= Z.of_nat (length l) * 65025).
  { induction l as [|i l IH]; [simpl; lia|]. cbn [map fold_right length].
    specialize (X i). specialize (W i). unfold uint8 in *.
    assert (Z.abs ((nth i x 0 - iz) * (nth i w 0 - wz)) <= 255 * 255).
    { rewrite Z.abs_mul. apply Z.mul_le_mono_nonneg; lia. }
    lia. }
  specialize (G (seq 0 (length x))). rewrite seq_length in G. lia.
Qed.
Theorem C23_matmul_batch : forall l xs ys,
  qmm_infer l (T2 xs) = Ok (T2 ys) <-> Forall2 (fun x y => qmm_infer l (T1 x) = Ok (T1 y)) xs ys.
Proof.
  intros l xs ys. cbn [qmm_infer]. split.
  - destruct (mapM (qmm_row l) xs) as [zs|] eqn:E; [|discriminate]. cbn [rbind]. intros H.
    assert (zs = ys) by congruence. subst zs. apply mapM_inv in E.
    induction E as [|a b xs ys A _ IH]; constructor; [now rewrite A|]. apply IH. reflexivity.
  - intros H. assert (E : mapM (qmm_row l) xs = Ok ys); [|now rewrite E].
    apply mapM_inv. induction H as [|a b xs ys A _ IH]; constructor; [|exact IH].
    destruct (qmm_row l a) as [z|]; [|discriminate]. cbn [rbind] in A. congruence.
Qed.
Theorem C23_matmul_bad_shape : forall l x w, nth_error (qm_w l) 0 = Some w -> length w <> length x ->
  qmm_infer l (T1 x) = Err EValueError.
Proof.
  intros l x w Hw L. cbn [qmm_infer]. unfold qmm_row. destruct (qm_w l) as [|w0 W]; [discriminate|].
  injection Hw as ->. cbn [mapM]. rewrite dot32_bad; [reflexivity|]. rewrite !map_length. lia.
Qed.

Example C23_example :
  (exists r, qadd_infer (mkqadd (1#10) 120 (nd_of_list 0 [10; 200; 7]) (1#20) 100 (1#8) 128)
                        (mknd [2%nat; 3%nat] (fun i => match i with [a; b] => Z.of_nat (100 * a + 20 * b) | _ => 0 end)) = Ok r /\
     nd_shape r = [2; 3]%nat /\ map (nd_get r) [[0; 0]; [0; 1]; [1; 1]]%nat = [0; 88; 168]) /\
  qmm_infer (qmm_build (1#10) 100 [[120; 90; 255]; [1; 2; 3]] (1#20) 128 (1#4) 10) (T2 [[150; 90; 30]; [100; 100; 100]]) =
    Ok (T2 [[0; 83]; [10; 10]]).
Proof.
  split; [eexists; split; [reflexivity|split; vm_compute; reflexivity]|vm_compute; reflexivity].
Qed.

(** ** C53: softmax layers *)
(** ONNX Softmax: the outputs of the whole batch sum to one ... *)
Theorem C53_onnx_softmax_total : forall ex xs, (forall x, (0 < ex x)%Q) -> (exists r, In r xs /\ r <> []) ->
  let ys := softmax_infer ex xs in
  (sumQ (map sumQ ys) == 1)%Q /\ (forall y v, In y ys -> In v y -> (0 < v <= 1)%Q) /\
  map (@length Q) ys = map (@length Q) xs.
Proof.
  intros ex xs He (r & Hr & Hn). unfold softmax_infer. set (T := sumQ (map sumQ (map (map ex) xs))).
  assert (P0 : forall l, (0 <= sumQ (map ex l))%Q).
  { induction l as [|a l IH]; cbn [map sumQ fold_right]; [lra|]. fold (sumQ (map ex l)). specialize (He a). lra. }
  assert (PX : forall l : list Q, forall v, In v l -> (ex v <= sumQ (map ex l))%Q).
  { induction l as [|a l IH]; intros v Hv; [destruct Hv|destruct Hv as [<- | Hv]]; cbn [map sumQ fold_right]; fold (sumQ (map ex l)).
    - specialize (P0 l). lra.
    - specialize (IH v Hv). specialize (He a). lra. }
  assert (PS : forall ls : list (list Q), (0 <= sumQ (map sumQ (map (map ex) ls)))%Q).
  { induction ls as [|a ls IH]; cbn [map sumQ fold_right]; [lra|]. specialize (P0 a). unfold sumQ in *. lra. }
  assert (PT : forall ls : list (list Q), forall l, In l ls -> (sumQ (map ex l) <= sumQ (map sumQ (map (map ex) ls)))%Q).
  { induction ls as [|a ls IH]; intros l Hl; [destruct Hl|destruct Hl as [<- | Hl]]; cbn [map sumQ fold_right]; fold (sumQ (map sumQ (map (map ex) ls))).
    - specialize (PS ls). unfold sumQ at 2. unfold sumQ in PS. unfold sumQ. lra.
    - specialize (IH l Hl). specialize (P0 a). unfold sumQ in *. lra. }
  assert (TP : (0 < T)%Q).
  { destruct r as [|v r]; [congruence|]. specialize (PT xs (v :: r) Hr). specialize (PX (v :: r) v (or_introl eq_refl)).
    specialize (He v). fold T in PT. lra. }
  split; [|split].
  - rewrite map_map.
    assert (G : forall ls : list (list Q), (sumQ (map (fun l => sumQ (map (fun x => ex x / T) l)) ls) == sumQ (map sumQ (map (map ex) ls)) * / T)%Q).
    { induction ls as [|a ls IH]; cbn [map sumQ fold_right]; [lra|].
      assert (A : (sumQ (map (fun x => ex x / T) a) == sumQ (map ex a) * / T)%Q).
      { clear. induction a as [|v a IH]; cbn [map sumQ fold_right]; [lra|]. unfold sumQ in IH. rewrite IH. unfold Qdiv. lra. }
      unfold sumQ in *. rewrite IH, A. lra. }
    rewrite G. fold T. field. lra.
  - intros y v Hy Hv. apply in_map_iff in Hy as (l & <- & Hl). apply in_map_iff in Hv as (x & <- & Hx).
    pose proof (He x). split; [apply Qlt_shift_div_l; lra|]. apply Qle_shift_div_r; [exact TP|].
    pose proof (PX l x Hx). pose proof (PT xs l Hl) as PT1. fold T in PT1. lra.
  - rewrite map_map. apply map_ext. intros. apply map_length.
Qed.
(** ... so with more than one sample no sample is a probability distribution: *)
Theorem C53_onnx_softmax_not_rowwise : forall ex xs l m, (forall x, (0 < ex x)%Q) ->
  xs = [l; m] -> l <> [] -> m <> [] ->
  exists y z, softmax_infer ex xs = [y; z] /\ (sumQ y < 1)%Q /\ (sumQ z < 1)%Q.
Proof.
  intros ex xs l m He -> Hl Hm.
  pose proof (C53_onnx_softmax_total ex [l; m] He) as H. destruct H as (S & B & L).
  { exists l. split; [now left|exact Hl]. }
  unfold softmax_infer in *. cbn [map] in *.
  set (T := sumQ [sumQ (map ex l); sumQ (map ex m)]) in *.
  eexists; eexists; split; [reflexivity|].
  assert (P : forall l0 : list Q, l0 <> [] -> (forall v, In v (map (fun x => ex x / T)%Q l0) -> (0 < v)%Q) -> (0 < sumQ (map (fun x => ex x / T)%Q l0))%Q).
  { intros [|a r] Hn Hp; [congruence|]. cbn [map sumQ fold_right].
    assert (0 <= fold_right Qplus 0 (map (fun x => ex x / T)%Q r))%Q.
    { assert (Hr : forall v, In v (map (fun x => ex x / T)%Q r) -> (0 < v)%Q) by (intros; apply Hp; now right).
      clear - Hr. induction r as [|b r IH]; cbn [map fold_right]; [lra|].
      pose proof (Hr (ex b / T)%Q (or_introl eq_refl)). specialize (IH ltac:(intros; apply Hr; now right)). lra. }
    pose proof (Hp (ex a / T)%Q (or_introl eq_refl)). lra. }
  cbn [sumQ fold_right] in S.
  pose proof (P l Hl ltac:(intros v Hv; apply (B _ v (or_introl eq_refl) Hv))).
  pose proof (P m Hm ltac:(intros v Hv; apply (B _ v (or_intror (or_introl eq_refl)) Hv))).
  unfold sumQ in *. split; lra.
Qed.
(** TFLite SOFTMAX returns its input codes: the predicted class is unchanged, the values are not
    softmax (its documented output has scale 1/256 and zero point -128). *)
Theorem C53_tflite_softmax_identity : forall x : list Z, tflite_softmax_infer x = x.
Proof. reflexivity. Qed.
Example C53_example :
  let ex x := (1 + x * x)%Q in
  (sumQ (hd [] (softmax_infer ex [[1; 2]; [0; 3]]%Q)) == 7 # 18)%Q.
Proof. vm_compute. reflexivity. Qed.
