From Verif Require Import Base BaseProofs DtypeModel FcModel FcProofs.
From Coq Require Import Lqa.
Open Scope Z_scope.
Open Scope list_scope.

Definition dotZ (a b : list Z) : Z := sumZ (map2 Z.mul a b).

Lemma wrap_s_eq b x y : x mod 2 ^ b = y mod 2 ^ b -> wrap_s b x = wrap_s b y.
Proof.
  intros H. unfold wrap_s. f_equal. rewrite Zplus_mod, H, <- Zplus_mod. reflexivity.
Qed.
Lemma wrap_s_mod b x : 0 < b -> (wrap_s b x) mod 2 ^ b = x mod 2 ^ b.
Proof.
  intros Hb. unfold wrap_s.
  rewrite Zminus_mod, Zmod_mod, <- Zminus_mod. f_equal. lia.
Qed.
Lemma i64_mod x : (i64 x) mod 2 ^ 64 = x mod 2 ^ 64.
Proof. apply wrap_s_mod. lia. Qed.
Lemma i64_add_l a b : i64 (i64 a + b) = i64 (a + b).
Proof. apply wrap_s_eq. rewrite Zplus_mod, i64_mod, <- Zplus_mod. reflexivity. Qed.
Lemma i64_add_r a b : i64 (a + i64 b) = i64 (a + b).
Proof. apply wrap_s_eq. rewrite Zplus_mod, i64_mod, <- Zplus_mod. reflexivity. Qed.
Lemma i64_sub_l a b : i64 (i64 a - b) = i64 (a - b).
Proof. apply wrap_s_eq. rewrite Zminus_mod, i64_mod, <- Zminus_mod. reflexivity. Qed.
Lemma i64_sub_r a b : i64 (a - i64 b) = i64 (a - b).
Proof. apply wrap_s_eq. rewrite Zminus_mod, i64_mod, <- Zminus_mod. reflexivity. Qed.
Lemma i64_mul_l a b : i64 (i64 a * b) = i64 (a * b).
Proof. apply wrap_s_eq. rewrite Zmult_mod, i64_mod, <- Zmult_mod. reflexivity. Qed.
Lemma i64_mul_r a b : i64 (a * i64 b) = i64 (a * b).
Proof. apply wrap_s_eq. rewrite Zmult_mod, i64_mod, <- Zmult_mod. reflexivity. Qed.
Lemma i64_i64 a : i64 (i64 a) = i64 a.
Proof. apply wrap_s_eq. apply i64_mod. Qed.
Lemma i64_id a : - 2 ^ 63 <= a <= 2 ^ 63 - 1 -> i64 a = a.
Proof. intros H. apply wrap_s_id; [lia|exact H]. Qed.

Lemma dot64_ok a b : length a = length b -> dot64 a b = Ok (if (length a =? 0)%nat then 0 else i64 (dotZ a b)).
Proof.
  revert b; induction a as [|x a IH]; intros [|y b] H; simpl in H; try discriminate; [reflexivity|].
  cbn [dot64]. rewrite IH by lia. cbn [rbind length Nat.eqb]. unfold dotZ. cbn [map2 sumZ fold_right].
  f_equal. destruct (length a =? 0)%nat eqn:E.
  - destruct a; [|discriminate]. destruct b; [|discriminate]. simpl. rewrite i64_add_l. reflexivity.
  - rewrite i64_add_r, i64_add_l. reflexivity.
Qed.
Lemma dot64_ok' a b : length a = length b -> dot64 a b = Ok (i64 (dotZ a b)).
Proof.
  intros H. rewrite dot64_ok by exact H. destruct a; [|reflexivity].
  reflexivity.
Qed.
Lemma dot64_len a b : length a <> length b -> dot64 a b = Err EValueError.
Proof.
  revert b; induction a as [|x a IH]; intros [|y b] H; simpl in *; try reflexivity; [lia|].
  rewrite IH by lia. reflexivity.
Qed.
Lemma dot64_comm a b : dot64 a b = dot64 b a.
Proof.
  revert b; induction a as [|x a IH]; intros [|y b]; simpl; try reflexivity.
  rewrite (IH b), (Z.mul_comm x y). reflexivity.
Qed.

Lemma dotZ_centered zx zw x w : length w = length x ->
  i64 (dotZ (map (fun v => i64 (v - zw)) w) (map (fun v => i64 (i64 v - i64 zx)) x)) =
  i64 (sumZ (map (fun i => (nth i x 0 - zx) * (nth i w 0 - zw)) (seq 0 (length x)))).
Proof.
  revert x; induction w as [|a w IH]; intros [|b x] H; simpl in H; try discriminate; [reflexivity|].
  unfold dotZ in *. cbn [map map2 sumZ fold_right length seq].
  rewrite <- seq_shift, map_map. cbn [nth].
  rewrite i64_sub_l, i64_sub_r.
  rewrite <- i64_add_l, i64_mul_l, i64_mul_r, i64_add_l.
  rewrite <- i64_add_r. fold (sumZ (map2 Z.mul (map (fun v => i64 (v - zw)) w) (map (fun v => i64 (i64 v - i64 zx)) x))).
  rewrite IH by lia. rewrite i64_add_r. f_equal. unfold sumZ. f_equal. lia.
Qed.

Lemma mapM_inv {A B} (f : A -> res B) l l' : mapM f l = Ok l' <-> Forall2 (fun x y => f x = Ok y) l l'.
Proof.
  revert l'; induction l as [|x l IH]; intros l'; simpl.
  - split; [intros [= <-]; constructor|intros H; inversion H; reflexivity].
  - destruct (f x) as [y|e] eqn:E; simpl.
    + destruct (mapM f l) as [ys|e] eqn:E2; simpl.
      * split; [intros [= <-]; constructor; [exact E|apply IH; reflexivity]|].
        intros H; inversion H; subst. apply IH in H4. congruence.
      * split; [discriminate|]. intros H; inversion H; subst. apply IH in H4. congruence.
    + split; [discriminate|]. intros H; inversion H; subst. congruence.
Qed.
Lemma mapM_ext {A B} (f g : A -> res B) l : (forall x, f x = g x) -> mapM f l = mapM g l.
Proof. intros H. induction l as [|x l IH]; simpl; [reflexivity|]. now rewrite H, IH. Qed.

(** ** batch = row by row *)
Lemma fc_batch l xs ys :
  fc_infer l (T2 xs) = Ok (T2 ys) <->
  Forall2 (fun x y => fc_infer l (T1 x) = Ok (T1 y)) xs ys.
Proof.
  simpl. unfold fc_acc_2d.
  assert (K : forall ms, mapM (fun x => mapM (fun w => dot64 (fc_center l x) w) (fc_w l)) xs = Ok ms <->
     Forall2 (fun x m => mapM (fun w => dot64 w (fc_center l x)) (fc_w l) = Ok m) xs ms).
  { intros ms. rewrite mapM_inv. split; intros H; induction H; constructor; try assumption;
      rewrite <- H; apply mapM_ext; intros; apply dot64_comm. }
  split; intros H.
  - destruct (mapM (fun x => mapM _ (fc_w l)) xs) as [ms|] eqn:E; [|discriminate]. simpl in H.
    destruct (mapM _ ms) as [a|] eqn:E2; [|discriminate]. simpl in H. injection H as <-.
    clear E. pose proof (proj1 (K ms) eq_refl) as E. clear K. apply mapM_inv in E2. revert a E2.
    induction E; intros a E2; inversion E2; subst; simpl; constructor.
    + unfold fc_acc_1d. rewrite H. cbn [rbind]. rewrite H2. reflexivity.
    + apply IHE. assumption.
  - assert (exists ms a, Forall2 (fun x m => mapM (fun w => dot64 w (fc_center l x)) (fc_w l) = Ok m) xs ms /\
        Forall2 (fun m r => badd64 m (fc_bias l) = Ok r) ms a /\ ys = map (map (fc_requant l)) a) as (ms & a & A & B & ->).
    { clear K. induction H as [|x y xs ys H _ IH].
      - exists [], []. repeat constructor.
      - destruct IH as (ms & a & A & B & ->).
        unfold fc_acc_1d in H.
        destruct (mapM _ (fc_w l)) as [m|] eqn:E; [|discriminate]. cbn [rbind] in H.
        destruct (badd64 m (fc_bias l)) as [r|] eqn:E2; [|discriminate]. cbn [rbind] in H. injection H as <-.
        exists (m :: ms), (r :: a). repeat split; try constructor; assumption. }
    apply K in A. rewrite A. simpl. apply mapM_inv in B. rewrite B. reflexivity.
Qed.

Lemma mapM_err {A B} (f : A -> res B) l e :
  (forall x e', f x = Err e' -> e' = e) -> forall e', mapM f l = Err e' -> e' = e.
Proof.
  intros H. induction l as [|x l IH]; intros e' E; simpl in E; [discriminate|].
  destruct (f x) eqn:F; simpl in E; [|injection E as <-; eapply H; exact F].
  destruct (mapM f l); simpl in E; [discriminate|]. apply IH. congruence.
Qed.
Lemma dot64_err a b e : dot64 a b = Err e -> e = EValueError.
Proof.
  destruct (Nat.eq_dec (length a) (length b)) as [E|E].
  - rewrite dot64_ok by exact E. discriminate.
  - rewrite dot64_len by exact E. congruence.
Qed.
Lemma badd64_err a b e : badd64 a b = Err e -> e = EValueError.
Proof.
  unfold badd64. destruct (length a =? length b)%nat; [discriminate|].
  destruct a as [|? [|? ?]], b as [|? [|? ?]]; congruence.
Qed.
Lemma fc_infer_err l t e : fc_infer l t = Err e ->
  e = EValueError \/ (e = EAssertionError /\ (2 < tensor_ndim t)%nat).
Proof.
  destruct t as [x|xs|n]; cbn [fc_infer tensor_ndim].
  - unfold fc_acc_1d. destruct (mapM _ _) eqn:E; cbn [rbind].
    + destruct (badd64 _ _) eqn:E2; cbn [rbind]; [discriminate|]. intros [= <-]. left. eapply badd64_err; exact E2.
    + intros [= <-]. left. eapply mapM_err; [|exact E]. intros ? ?. apply dot64_err.
  - unfold fc_acc_2d. destruct (mapM _ xs) eqn:E; cbn [rbind].
    + destruct (mapM (fun r => badd64 r (fc_bias l)) a) as [z|z] eqn:E2; cbn [rbind]; [intros H; discriminate H|]. intros [= <-]. left.
      eapply mapM_err; [|exact E2]. intros ? ?. apply badd64_err.
    + intros [= <-]. left. eapply mapM_err; [|exact E]. intros ? ?. cbn beta. apply mapM_err. intros ? ?; apply dot64_err.
  - destruct (2 <? n)%nat eqn:E; intros [= <-]; [right; split; [reflexivity|]|left; reflexivity].
    now apply Nat.ltb_lt in E.
Qed.

(** range *)
Lemma fc_requant_range l acc : gmin (fc_dtype l) <= gmax (fc_dtype l) ->
  gmin (fc_dtype l) <= fc_requant l acc <= gmax (fc_dtype l).
Proof. intros H. unfold fc_requant. apply clipZ_range, H. Qed.

(** ** shape-correct inference on one row *)
Lemma map2_length {A B C} (f : A -> B -> C) a b : length a = length b -> length (map2 f a b) = length a.
Proof. revert b; induction a; intros [|? ?] H; simpl in *; try discriminate; [reflexivity|]. f_equal. apply IHa. lia. Qed.
Lemma map2_nth {A B C} (f : A -> B -> C) a b j da db dc : length a = length b -> (j < length a)%nat ->
  nth j (map2 f a b) dc = f (nth j a da) (nth j b db).
Proof.
  revert b j; induction a; intros [|? ?] j H Hj; simpl in *; try discriminate; [lia|].
  destruct j; [reflexivity|]. apply IHa; lia.
Qed.

Lemma fc_mult_of_inv si sw so m : fc_mult_of si sw so = Ok m <-> ~ (so == 0)%Q /\ fc_mult_build (si * sw / so)%Q = Ok m.
Proof.
  unfold fc_mult_of. destruct (Qeq_bool so 0) eqn:E.
  - apply Qeq_bool_iff in E. split; [discriminate|]. intros [N _]. contradiction.
  - apply Qeq_bool_neq in E. tauto.
Qed.
Lemma fc_mult_of_nz si sw so : ~ (so == 0)%Q -> fc_mult_of si sw so = fc_mult_build (si * sw / so)%Q.
Proof. intros N. unfold fc_mult_of. destruct (Qeq_bool so 0) eqn:E; [apply Qeq_bool_iff in E; contradiction|reflexivity]. Qed.
Lemma fc_build_ok si zx sw zw W bias so zo d l :
  fc_build si zx sw zw W bias so zo d = Ok l ->
  exists m, fc_mult_build (si * sw / so)%Q = Ok m /\
  l = mkfc zx (map (map (fun w => i64 (w - zw))) W) bias m zo d.
Proof.
  unfold fc_build. destruct (fc_mult_of si sw so) as [m|] eqn:E; simpl; [|discriminate].
  intros H. exists m. split; [apply (proj1 (fc_mult_of_inv _ _ _ _)) in E; apply E|congruence].
Qed.

Definition acc_sum (zx zw : Z) (x w : list Z) : Z :=
  sumZ (map (fun i => (nth i x 0 - zx) * (nth i w 0 - zw)) (seq 0 (length x))).

Lemma fc_infer_row zx zw W bias m zo d x :
  (forall w, In w W -> length w = length x) -> length bias = length W ->
  let l := mkfc zx (map (map (fun w => i64 (w - zw))) W) bias m zo d in
  exists y, fc_infer l (T1 x) = Ok (T1 y) /\ length y = length W /\
  forall j, (j < length W)%nat ->
    nth j y 0 = fc_requant l (i64 (acc_sum zx zw x (nth j W []) + nth j bias 0)).
Proof.
  intros HW Hb l. cbn [fc_infer]. unfold fc_acc_1d.
  change (fc_w l) with (map (map (fun w => i64 (w - zw))) W). change (fc_bias l) with bias.
  assert (E : mapM (fun w => dot64 w (fc_center l x)) (map (map (fun w => i64 (w - zw))) W) =
              Ok (map (fun w => i64 (acc_sum zx zw x w)) W)).
  { clear Hb. assert (G : forall W', (forall w, In w W' -> length w = length x) -> 
      mapM (fun w => dot64 w (fc_center l x)) (map (map (fun w => i64 (w - zw))) W') =
              Ok (map (fun w => i64 (acc_sum zx zw x w)) W')).
    { induction W' as [|w W' IH]; intros H; [reflexivity|]. cbn [map mapM].
      rewrite dot64_ok' by (unfold fc_center; rewrite !map_length; apply H; left; reflexivity).
      cbn [rbind]. rewrite IH by (intros; apply H; right; assumption). cbn [rbind].
      f_equal. f_equal. unfold fc_center, l. cbn [fc_in_zp]. rewrite dotZ_centered by (apply H; left; reflexivity).
      reflexivity. }
    apply G, HW. }
  rewrite E. cbn [rbind]. unfold badd64.
  replace (length _ =? length bias)%nat with true by (symmetry; apply Nat.eqb_eq; rewrite map_length; lia).
  cbn [rbind]. eexists. split; [reflexivity|].
  set (a := map2 _ _ _).
  assert (La : length a = length W) by (unfold a; rewrite map2_length; rewrite map_length; lia).
  split; [rewrite map_length; exact La|].
  intros j Hj. rewrite nth_indep with (d' := fc_requant l 0) by (rewrite map_length; lia).
  rewrite map_nth. f_equal. unfold a. 
  rewrite map2_nth with (da := i64 (acc_sum zx zw x [])) (db := 0) by (rewrite map_length; lia).
  rewrite (map_nth (fun w => i64 (acc_sum zx zw x w))). apply i64_add_l.
Qed.

Lemma fc_requant_exact l acc : 
  0 <= fia_q (fc_mult l) < 2 ^ 31 -> 1 <= fia_shift (fc_mult l) <= 50 ->
  fia_round (fc_mult l) = 2 ^ (fia_shift (fc_mult l) - 1) ->
  Z.abs acc <= 2 ^ 31 -> Z.abs (fc_out_zp l) <= 2 ^ 62 ->
  fc_requant l (i64 acc) =
  clipZ (gmin (fc_dtype l)) (gmax (fc_dtype l))
    ((acc * fia_q (fc_mult l) + fia_round (fc_mult l)) / 2 ^ fia_shift (fc_mult l) + fc_out_zp l).
Proof.
  intros Hq Hs Hr Ha Hz. unfold fc_requant.
  rewrite i64_i64, (i64_id acc) by lia.
  assert (R : 1 <= fia_round (fc_mult l) <= 2 ^ 49).
  { rewrite Hr. set (t := fia_shift (fc_mult l)) in *. clearbody t.
    pose proof (Z.pow_le_mono_r 2 0 (t - 1) ltac:(lia) ltac:(lia)).
    pose proof (Z.pow_le_mono_r 2 (t - 1) 49 ltac:(lia) ltac:(lia)). lia. }
  assert (P : Z.abs (acc * fia_q (fc_mult l)) <= 2 ^ 62) by (rewrite Z.abs_mul; nia).
  rewrite (i64_id (acc * _)) by lia. rewrite (i64_id (acc * _ + _)) by lia.
  set (z := acc * fia_q (fc_mult l) + fia_round (fc_mult l)) in *.
  assert (S2 : 2 <= 2 ^ fia_shift (fc_mult l)).
  { apply (Z.pow_le_mono_r 2 1); lia. }
  assert (Zb : Z.abs z <= 2 ^ 62 + 2 ^ 49) by lia.
  assert (D : Z.abs (z / 2 ^ fia_shift (fc_mult l)) <= 2 ^ 62 - 1).
  { set (t := 2 ^ fia_shift (fc_mult l)) in *.
    pose proof (Z.div_mod z t ltac:(lia)). pose proof (Z.mod_pos_bound z t ltac:(lia)).
    clearbody t z. nia. }
  rewrite i64_id by lia. reflexivity.
Qed.

Lemma fc_requant_silent zo d zx W bias acc : Z.abs zo <= 2 ^ 62 ->
  fc_requant (mkfc zx W bias (mkfia 0 31 (2 ^ 30)) zo d) acc = clipZ (gmin d) (gmax d) zo.
Proof.
  intros H. unfold fc_requant. cbn [fc_mult fia_q fia_round fia_shift fc_dtype fc_out_zp].
  rewrite Z.mul_0_r. change (i64 (i64 0 + 2 ^ 30)) with (2 ^ 30). change (2 ^ 30 / 2 ^ 31) with 0.
  rewrite Z.add_0_l, i64_id by lia. reflexivity.
Qed.
