From Verif Require Import Base BaseProofs DtypeModel QuantModel.
Open Scope Z_scope.
Open Scope list_scope.

(** Guards: the dtype's codes fit the int32 result array / no int32 wrap on dequantize. *)
Definition fits_i32 (d : gdtype) : Prop := - 2 ^ 31 <= gmin d /\ gmin d <= gmax d /\ gmax d <= 2 ^ 31 - 1.
Definition fits_16 (d : gdtype) : Prop := - 2 ^ 15 <= gmin d /\ gmin d <= gmax d /\ gmax d <= 2 ^ 16 - 1.
Definition in_dt (d : gdtype) (q : Z) : Prop := gmin d <= q <= gmax d.

(** The int32 subtraction [code - zp] of dequantize cannot wrap for any code of the dtype. *)
Definition zp_nowrap (d : gdtype) (zp : Z) : Prop := - 2 ^ 31 <= gmin d - zp /\ gmax d - zp <= 2 ^ 31 - 1.
Lemma fits_16_nowrap d zp : fits_16 d -> in_dt d zp -> zp_nowrap d zp.
Proof. unfold fits_16, in_dt, zp_nowrap; lia. Qed.

Lemma fits_16_32 d : fits_16 d -> fits_i32 d.
Proof. unfold fits_16, fits_i32; lia. Qed.

Lemma q_round_clip d e x : fits_i32 d -> q_round d e x = clipZ (gmin d) (gmax d) (Qfloor (x + e)).
Proof.
  intros (H1 & H2 & H3). unfold q_round. apply cast_i32_id.
  pose proof (clipZ_range (gmin d) (gmax d) (Qfloor (x + e)) H2). lia.
Qed.
Lemma q_round_range d e x : fits_i32 d -> in_dt d (q_round d e x).
Proof.
  intros H. rewrite q_round_clip by exact H. apply clipZ_range. apply H.
Qed.

Lemma quantize_range d data zp s policy idx :
  fits_i32 d -> in_dt d (nd_get (quantize d data zp s policy) idx).
Proof.
  intros H. unfold quantize. destruct policy as [p|]; [destruct (nd_bin _ _ _)|];
  simpl; now apply q_round_range.
Qed.

Lemma quantize_none d data zp s idx :
  nd_get (quantize d data zp s None) idx = quant1 d zp s (nd_get data idx).
Proof. reflexivity. Qed.

Lemma dequant1_nowrap d zp s q :
  fits_i32 d -> zp_nowrap d zp -> in_dt d q -> dequant1 zp s q = (inject_Z (q - zp) * s)%Q.
Proof.
  intros (A & B & C) [D E] [F G]. unfold zp_nowrap, in_dt, dequant1 in *.
  rewrite (wrap_s_id 32 q) by lia. rewrite wrap_s_id by lia. reflexivity.
Qed.

Lemma Qdiv_mul_cancel x s : ~ (s == 0)%Q -> ((x / s) * s == x)%Q.
Proof. intros H. field. exact H. Qed.

(** distance in code units *)
Lemma dist_scale x s zp k : (0 < s)%Q ->
  (Qabs (x - inject_Z (k - zp) * s) == s * Qabs ((x / s + inject_Z zp) - inject_Z k))%Q.
Proof.
  intros Hs.
  assert (E : (x - inject_Z (k - zp) * s == s * ((x / s + inject_Z zp) - inject_Z k))%Q).
  { rewrite inject_Z_minus. field. lra. }
  rewrite E, Qabs_Qmult. rewrite (Qabs_pos s) by lra. reflexivity.
Qed.

Lemma clip_nearest lo hi y k : lo <= hi -> lo <= k <= hi ->
  (Qabs (y - inject_Z (clipZ lo hi (Qfloor (y + (1#2))))) <= Qabs (y - inject_Z k))%Q.
Proof.
  intros Hlh Hk. set (f := Qfloor (y + (1#2))).
  destruct (Qfloor_bounds (y + (1#2))) as [F1 F2]. fold f in F1, F2.
  destruct (Z_lt_le_dec f lo) as [L|L].
  - replace (clipZ lo hi f) with lo by (unfold clipZ; lia).
    assert (Hq : (inject_Z f + 1 <= inject_Z lo)%Q).
    { change 1%Q with (inject_Z 1). rewrite <- inject_Z_plus, <- Zle_Qle. lia. }
    assert (Hk' : (inject_Z lo <= inject_Z k)%Q) by (rewrite <- Zle_Qle; lia).
    rewrite !(Qabs_neg _) by lra. lra.
  - destruct (Z_lt_le_dec hi f) as [U|U].
    + replace (clipZ lo hi f) with hi by (unfold clipZ; lia).
      assert (Hq : (inject_Z hi + 1 <= inject_Z f)%Q).
      { change 1%Q with (inject_Z 1). rewrite <- inject_Z_plus, <- Zle_Qle. lia. }
      assert (Hk' : (inject_Z k <= inject_Z hi)%Q) by (rewrite <- Zle_Qle; lia).
      rewrite !(Qabs_pos _) by lra. lra.
    + rewrite clipZ_id by lia.
      destruct (Z.eq_dec k f) as [->|N]; [apply Qle_refl|].
      eapply Qle_trans with (1#2).
      * apply Qabs_Qle_condition. split; lra.
      * destruct (Z_lt_le_dec k f) as [A|A].
        -- assert (inject_Z k + 1 <= inject_Z f)%Q.
           { change 1%Q with (inject_Z 1). rewrite <- inject_Z_plus, <- Zle_Qle. lia. }
           rewrite Qabs_pos by lra. lra.
        -- assert (inject_Z f + 1 <= inject_Z k)%Q.
           { change 1%Q with (inject_Z 1). rewrite <- inject_Z_plus, <- Zle_Qle. lia. }
           rewrite Qabs_neg by lra. lra.
Qed.

Lemma quant1_nearest d zp s x k :
  fits_i32 d -> zp_nowrap d zp -> (0 < s)%Q -> in_dt d k ->
  (Qabs (x - dequant1 zp s (quant1 d zp s x)) <= Qabs (x - dequant1 zp s k))%Q.
Proof.
  intros Hd Hz Hs Hk.
  pose proof (q_round_range d (1#2) (x / s + inject_Z zp) Hd) as Hr.
  rewrite (dequant1_nowrap d) by assumption.
  rewrite (dequant1_nowrap d zp s k) by assumption.
  rewrite !dist_scale by exact Hs.
  unfold quant1. rewrite q_round_clip by exact Hd.
  apply Qmult_le_l; [exact Hs|]. apply clip_nearest; [apply Hd|exact Hk].
Qed.

Lemma quant1_half d zp s x :
  fits_i32 d -> zp_nowrap d zp -> (0 < s)%Q ->
  (inject_Z (gmin d) <= x / s + inject_Z zp <= inject_Z (gmax d))%Q ->
  (Qabs (x - dequant1 zp s (quant1 d zp s x)) <= s * (1#2))%Q.
Proof.
  intros Hd Hz Hs [L U].
  pose proof (q_round_range d (1#2) (x / s + inject_Z zp) Hd) as Hr.
  rewrite (dequant1_nowrap d) by assumption.
  rewrite dist_scale by exact Hs.
  apply Qmult_le_l; [exact Hs|].
  unfold quant1. rewrite q_round_clip by exact Hd.
  destruct (Qfloor_bounds (x / s + inject_Z zp + (1#2))) as [F1 F2].
  rewrite clipZ_id; [apply Qabs_Qle_condition; split; lra|].
  split.
  - apply Qfloor_ge. lra.
  - assert (Qfloor (x / s + inject_Z zp + (1#2)) < gmax d + 1); [|lia].
    apply Qfloor_lt. rewrite inject_Z_plus. change (inject_Z 1) with 1%Q. lra.
Qed.

Lemma quant1_saturate_low d zp s x :
  fits_i32 d -> (x / s + inject_Z zp <= inject_Z (gmin d))%Q -> quant1 d zp s x = gmin d.
Proof.
  intros Hd H. unfold quant1. rewrite q_round_clip by exact Hd.
  assert (Qfloor (x / s + inject_Z zp + (1#2)) < gmin d + 1).
  { apply Qfloor_lt. rewrite inject_Z_plus. change (inject_Z 1) with 1%Q. lra. }
  unfold clipZ. destruct Hd as (A & B & C). lia.
Qed.
Lemma quant1_saturate_high d zp s x :
  fits_i32 d -> (inject_Z (gmax d) <= x / s + inject_Z zp)%Q -> quant1 d zp s x = gmax d.
Proof.
  intros Hd H. unfold quant1. rewrite q_round_clip by exact Hd.
  assert (gmax d <= Qfloor (x / s + inject_Z zp + (1#2))).
  { apply Qfloor_ge. lra. }
  unfold clipZ. destruct Hd as (A & B & C). lia.
Qed.

Lemma quant1_dequant1 d zp s q :
  fits_i32 d -> zp_nowrap d zp -> ~ (s == 0)%Q -> in_dt d q ->
  quant1 d zp s (dequant1 zp s q) = q.
Proof.
  intros Hd Hz Hs Hq. rewrite (dequant1_nowrap d) by assumption.
  unfold quant1. rewrite q_round_clip by exact Hd.
  assert (E : (inject_Z (q - zp) * s / s + inject_Z zp + (1#2) == (1#2) + inject_Z q)%Q).
  { rewrite inject_Z_minus. field. exact Hs. }
  rewrite (Qfloor_comp _ _ E). rewrite Qfloor_plus_Z.
  replace (Qfloor (1#2) + q) with q by (change (Qfloor (1#2)) with 0; lia).
  now apply clipZ_id.
Qed.

(** int32 bias: no wrap when the zero point is 0 *)
Lemma dequant1_zp0 s q : - 2 ^ 31 <= q <= 2 ^ 31 - 1 -> dequant1 0 s q = (inject_Z q * s)%Q.
Proof.
  intros H. unfold dequant1. rewrite (wrap_s_id 32 q) by lia.
  rewrite Z.sub_0_r, (wrap_s_id 32 q) by lia. reflexivity.
Qed.

Lemma quant1_mono d zp s x y :
  fits_i32 d -> (0 < s)%Q -> (x <= y)%Q -> quant1 d zp s x <= quant1 d zp s y.
Proof.
  intros Hd Hs H. unfold quant1. rewrite !q_round_clip by exact Hd.
  apply clipZ_mono, Qfloor_mono.
  assert (x / s <= y / s)%Q; [|lra].
  apply Qmult_le_compat_r; [exact H|]. apply Qlt_le_weak. now apply Qinv_lt_0_compat.
Qed.
Lemma quant1_zero d zp s : fits_i32 d -> in_dt d zp -> quant1 d zp s 0 = zp.
Proof.
  intros Hd Hz. unfold quant1. rewrite q_round_clip by exact Hd.
  assert (E : (0 / s + inject_Z zp + (1#2) == (1#2) + inject_Z zp)%Q).
  { unfold Qdiv. lra. }
  rewrite (Qfloor_comp _ _ E), Qfloor_plus_Z.
  change (Qfloor (1#2)) with 0. now apply clipZ_id.
Qed.

Global Instance quant1_comp d zp : Proper (Qeq ==> Qeq ==> eq) (quant1 d zp).
Proof.
  intros s s' Es x x' Ex. unfold quant1, q_round. f_equal. f_equal.
  apply Qfloor_comp. now rewrite Es, Ex.
Qed.

(** Broadcasting with an array of the same shape is pointwise. *)
Lemma bshape_rev_refl s : bshape_rev s s = Some s.
Proof. induction s as [|x s IH]; simpl; [reflexivity|]. now rewrite IH, Nat.eqb_refl. Qed.
Lemma bshape_refl s : bshape s s = Some s.
Proof. unfold bshape. rewrite bshape_rev_refl. simpl. now rewrite rev_involutive. Qed.
Lemma valid_length s i : valid_idx s i = true -> length i = length s.
Proof.
  revert i; induction s as [|n s IH]; intros [|k i] H; simpl in *; try congruence.
  apply andb_true_iff in H as [_ H]. now rewrite (IH _ H).
Qed.
Lemma bidx_same s i : valid_idx s i = true -> bidx s i = i.
Proof.
  intros H. unfold bidx. rewrite (valid_length _ _ H), Nat.sub_diag. simpl.
  revert i H; induction s as [|n s IH]; intros [|k i] H; simpl in *; try congruence.
  apply andb_true_iff in H as [H1 H2]. rewrite (IH _ H2).
  destruct (Nat.eqb_spec n 1) as [->|]; [|reflexivity].
  apply Nat.ltb_lt in H1. f_equal. lia.
Qed.

Lemma quantize_policy_same d data zp s p idx :
  nd_shape p = nd_shape data -> valid_idx (nd_shape data) idx = true ->
  nd_get (quantize d data zp s (Some p)) idx =
  quant1p d zp s (nd_get data idx) (nd_get p idx).
Proof.
  intros Hs Hv. unfold quantize, nd_bin. simpl. rewrite Hs, bshape_refl. simpl.
  rewrite (bidx_same _ _ Hv). reflexivity.
Qed.
Lemma quantize_shape_same d data zp s p :
  nd_shape p = nd_shape data -> nd_shape (quantize d data zp s (Some p)) = nd_shape data.
Proof. intros Hs. unfold quantize, nd_bin. simpl. now rewrite Hs, bshape_refl. Qed.

Lemma quant1p_binary d zp s x (b : bool) : fits_i32 d ->
  quant1p d zp s x (if b then 1 else 0) =
  clipZ (gmin d) (gmax d) (Qfloor (x / s) + zp + (if b then 1 else 0)).
Proof.
  intros Hd. unfold quant1p. rewrite q_round_clip by exact Hd. f_equal.
  assert (E : (x / s + inject_Z zp + (if b then 1 else 0) + 0 ==
               x / s + inject_Z (zp + (if b then 1 else 0)%Z))%Q).
  { rewrite inject_Z_plus. destruct b; change (inject_Z 1) with 1%Q; change (inject_Z 0) with 0%Q; lra. }
  rewrite (Qfloor_comp _ _ E), Qfloor_plus_Z. destruct b; lia.
Qed.

Lemma base_rounding_nearest d zp s x : fits_i32 d ->
  quant1p d zp s x (base_rounding1 s x) = quant1 d zp s x.
Proof.
  intros Hd. unfold base_rounding1.
  set (y := (x / s)%Q).
  assert (R : quant1 d zp s x = clipZ (gmin d) (gmax d) (Qfloor (y + (1#2)) + zp)).
  { unfold quant1. rewrite q_round_clip by exact Hd. f_equal.
    assert (E : (x / s + inject_Z zp + (1#2) == y + (1#2) + inject_Z zp)%Q) by (unfold y; lra).
    now rewrite (Qfloor_comp _ _ E), Qfloor_plus_Z. }
  rewrite R.
  destruct (Qfloor_bounds y) as [F1 F2].
  destruct (Qfloor_bounds (y + (1#2))) as [G1 G2].
  destruct (Qlt_le_dec y (inject_Z (Qfloor (y + (1#2))))) as [H|H].
  - pose proof (quant1p_binary d zp s x true Hd) as Q1. cbv iota in Q1. rewrite Q1. fold y.
    f_equal. assert (Qfloor y + 1 = Qfloor (y + (1#2))); [|lia].
    assert (Qfloor y < Qfloor (y + (1#2))).
    { apply Zlt_inj. eapply Qle_lt_trans; [exact F1|exact H]. }
    assert (Qfloor (y + (1#2)) < Qfloor y + 2); [|lia].
    apply Zlt_inj. rewrite inject_Z_plus. change (inject_Z 2) with 2%Q. lra.
  - pose proof (quant1p_binary d zp s x false Hd) as Q1. cbv iota in Q1. rewrite Q1. fold y.
    f_equal. assert (Qfloor y = Qfloor (y + (1#2))); [|lia].
    apply Qfloor_iff. split; lra.
Qed.

Lemma floor_ceil_error d zp s x (b : bool) :
  fits_i32 d -> zp_nowrap d zp -> (0 < s)%Q ->
  gmin d <= Qfloor (x / s) + zp + (if b then 1 else 0) <= gmax d ->
  let e := (dequant1 zp s (quant1p d zp s x (if b then 1 else 0)) - x)%Q in
  (if b then 0 < e <= s else - s < e <= 0)%Q.
Proof.
  intros Hd Hz Hs Hr. rewrite quant1p_binary by exact Hd.
  rewrite clipZ_id by lia. rewrite (dequant1_nowrap d) by assumption.
  replace (Qfloor (x / s) + zp + (if b then 1 else 0) - zp) with (Qfloor (x/s) + (if b then 1 else 0)) by lia.
  destruct (Qfloor_bounds (x / s)) as [F1 F2].
  pose proof (Qdiv_mul_cancel x s ltac:(lra)) as C.
  assert (L : (inject_Z (Qfloor (x/s)) * s <= x)%Q).
  { rewrite <- C at 2. apply Qmult_le_compat_r; lra. }
  assert (U : (x < (inject_Z (Qfloor (x/s)) + 1) * s)%Q).
  { rewrite <- C at 1. apply Qmult_lt_compat_r; lra. }
  rewrite inject_Z_plus. destruct b; cbv zeta; change (inject_Z 1) with 1%Q; change (inject_Z 0) with 0%Q; split; lra.
Qed.

Lemma quantize_bad_policy d data zp s p :
  bshape (nd_shape data) (nd_shape p) = None ->
  quantize d data zp s (Some p) = quantize d data zp s None.
Proof. intros H. unfold quantize, nd_bin. simpl. now rewrite H. Qed.

(** LUTs *)
Lemma code_range_length d : length (code_range d) = Z.to_nat (gmax d + 1 - gmin d).
Proof. unfold code_range. now rewrite map_length, seq_length. Qed.
Lemma code_range_nth d k : (k < Z.to_nat (gmax d + 1 - gmin d))%nat ->
  nth_error (code_range d) k = Some (gmin d + Z.of_nat k).
Proof.
  intros H. unfold code_range. rewrite nth_error_map.
  rewrite (nth_error_nth' _ 0%nat) by (now rewrite seq_length).
  simpl. now rewrite seq_nth.
Qed.
Lemma float_activation_length d f s z :
  length (float_activation d f s z) = Z.to_nat (gmax d + 1 - gmin d).
Proof. unfold float_activation. now rewrite !map_length, code_range_length. Qed.
Lemma float_activation_nth d f s z k : (k < Z.to_nat (gmax d + 1 - gmin d))%nat ->
  nth k (float_activation d f s z) 0%Q = f (dequant1 z s (gmin d + Z.of_nat k)).
Proof.
  intros H. apply nth_error_nth. unfold float_activation.
  now rewrite !nth_error_map, code_range_nth.
Qed.

Lemma nd_to_list_nth {A} (a : nd A) n k : nd_shape a = [n] -> (k < n)%nat ->
  nth_error (nd_to_list a) k = Some (nd_get a [k]).
Proof.
  intros Hs Hk. unfold nd_to_list. rewrite Hs. simpl.
  rewrite nth_error_map, (nth_error_nth' _ 0%nat) by (now rewrite seq_length).
  simpl. now rewrite seq_nth.
Qed.
Lemma nd_to_list_length {A} (a : nd A) n : nd_shape a = [n] -> length (nd_to_list a) = n.
Proof. intros Hs. unfold nd_to_list. now rewrite Hs, map_length, seq_length. Qed.

(** Policies usable by create_LUT: absent or one entry per table entry. *)
Definition lut_policy_ok (d : gdtype) (p : option (nd Q)) : Prop :=
  match p with None => True | Some p => nd_shape p = [Z.to_nat (gmax d + 1 - gmin d)] end.

Lemma create_LUT_shape d f is iz os oz p : lut_policy_ok d p ->
  nd_shape (quantize d (nd_of_list 0%Q (float_activation d f is iz)) oz os p)
  = [Z.to_nat (gmax d + 1 - gmin d)].
Proof.
  intros H. destruct p as [p|].
  - rewrite quantize_shape_same; simpl; rewrite float_activation_length; [reflexivity|exact H].
  - simpl. now rewrite float_activation_length.
Qed.
Lemma create_LUT_length d f is iz os oz p : lut_policy_ok d p ->
  length (create_LUT d f is iz os oz p) = Z.to_nat (gmax d + 1 - gmin d).
Proof. intros H. unfold create_LUT. now apply nd_to_list_length, create_LUT_shape. Qed.
Lemma create_LUT_nth d f is iz os oz k : (k < Z.to_nat (gmax d + 1 - gmin d))%nat ->
  nth_error (create_LUT d f is iz os oz None) k =
  Some (quant1 d oz os (f (dequant1 iz is (gmin d + Z.of_nat k)))).
Proof.
  intros H. unfold create_LUT.
  rewrite (nd_to_list_nth _ _ _ (create_LUT_shape d f is iz os oz None I) H).
  f_equal. rewrite quantize_none. simpl. now rewrite float_activation_nth.
Qed.
Lemma create_LUT_nth_policy d f is iz os oz p k :
  nd_shape p = [Z.to_nat (gmax d + 1 - gmin d)] -> (k < Z.to_nat (gmax d + 1 - gmin d))%nat ->
  nth_error (create_LUT d f is iz os oz (Some p)) k =
  Some (quant1p d oz os (f (dequant1 iz is (gmin d + Z.of_nat k))) (nd_get p [k])).
Proof.
  intros Hp H. unfold create_LUT.
  rewrite (nd_to_list_nth _ _ _ (create_LUT_shape d f is iz os oz (Some p) Hp) H).
  f_equal. rewrite quantize_policy_same.
  - simpl. now rewrite float_activation_nth.
  - simpl. now rewrite float_activation_length.
  - simpl. rewrite float_activation_length. apply andb_true_iff. split; [now apply Nat.ltb_lt|reflexivity].
Qed.
