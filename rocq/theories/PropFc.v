(** Properties C14-C17 and C50: fixed-point multipliers and the fully connected layer. *)
From Verif Require Import Base BaseProofs DtypeModel QuantModel QuantProofs FcModel FcProofs FcLayer PropCore.
From Coq Require Import Lqa.
Open Scope Z_scope.
Open Scope list_scope.

(** ** Specification vocabulary *)
(** 2^-32 and 2^-31 *)
Definition u32 : Q := 1 # 4294967296.
Definition u31 : Q := 1 # 2147483648.
(** sum_i f(i) for i < n *)
Definition sum_upto {A} (add : A -> A -> A) (zero : A) (n : nat) (f : nat -> A) : A :=
  fold_right add zero (map f (seq 0 n)).
Definition sumZ_upto := sum_upto Z.add 0.
Definition sumQ_upto := sum_upto Qplus 0%Q.
(** the exact integer accumulator of output neuron with weights w and bias b *)
Definition exact_acc (zx zw : Z) (x w : list Z) (b : Z) : Z :=
  sumZ_upto (length x) (fun i => (nth i x 0 - zx) * (nth i w 0 - zw)) + b.
(** real number clipped to [lo, hi] *)
Definition clampQ (lo hi : Z) (r : Q) : Q :=
  if Qlt_le_dec r (inject_Z lo) then inject_Z lo
  else if Qlt_le_dec (inject_Z hi) r then inject_Z hi else r.

Lemma clampQ_close lo hi v r e : lo <= hi -> (Qabs (inject_Z v - r) <= e)%Q ->
  (Qabs (inject_Z (clamp lo hi v) - clampQ lo hi r) <= e)%Q.
Proof.
  intros L H. apply Qabs_Qle_condition in H. apply Qabs_Qle_condition.
  assert (LQ : (inject_Z lo <= inject_Z hi)%Q) by (apply (proj1 (Zle_inj _ _)); exact L).
  unfold clamp, clampQ.
  destruct (v <? lo) eqn:A; [apply Z.ltb_lt in A; apply Zlt_inj in A|apply Z.ltb_ge in A; apply Zle_inj in A].
  - destruct (Qlt_le_dec r (inject_Z lo)), (Qlt_le_dec (inject_Z hi) r); try lra.
  - destruct (hi <? v) eqn:B; [apply Z.ltb_lt in B; apply Zlt_inj in B|apply Z.ltb_ge in B; apply Zle_inj in B];
    destruct (Qlt_le_dec r (inject_Z lo)), (Qlt_le_dec (inject_Z hi) r); try lra.
Qed.

(** ** C14 *)
(** Which positive factors are accepted. *)
Theorem C14_accepted : forall v, (0 < v)%Q ->
  ((exists f, fia_init v = Ok f) <-> (v < inject_Z (2 ^ 30) * (1 - u32))%Q).
Proof. exact fia_ok_iff. Qed.

Theorem C14_error : forall v f x, (u32 <= Qabs v)%Q -> fia_init v = Ok f ->
  (Qabs (inject_Z (fia_mul f x) - v * inject_Z x) <= (1#2) + inject_Z (Z.abs x) * (Qabs v * u31))%Q.
Proof. exact fia_error. Qed.

Theorem C14_tiny_is_zero : forall v x, (0 < v)%Q -> (v < u32 * (1 - u32))%Q ->
  exists f, fia_init v = Ok f /\ fia_mul f x = 0.
Proof. exact fia_tiny. Qed.

Theorem C14_zero : forall x, exists f, fia_init 0 = Ok f /\ fia_mul f x = 0.
Proof.
  intros x. eexists; split; [reflexivity|]. apply fia_zero; cbn [fia_q fia_shift fia_round]; reflexivity || lia.
Qed.

(** Consequence: x up to 2^30/v is scaled to within one unit. *)
Theorem C14_within_one : forall v f x, (u32 <= v)%Q -> fia_init v = Ok f ->
  (inject_Z (Z.abs x) * v <= inject_Z (2 ^ 30))%Q ->
  (Qabs (inject_Z (fia_mul f x) - v * inject_Z x) <= 1)%Q.
Proof.
  intros v f x A B C. assert (P : (0 <= v)%Q) by (eapply Qle_trans; [|exact A]; discriminate).
  pose proof (C14_error v f x) as H. rewrite (Qabs_pos v P) in H. specialize (H A B).
  eapply Qle_trans; [exact H|].
  assert (inject_Z (Z.abs x) * (v * u31) <= 1#2)%Q; [|lra].
  rewrite Qmult_assoc. apply Qle_trans with (inject_Z (2 ^ 30) * u31)%Q; [|discriminate].
  apply Qmult_le_compat_r; [exact C|discriminate].
Qed.

Example C14_example : exists f, fia_init (1#3) = Ok f /\ fia_mul f 1000 = 333 /\ fia_mul f (-1000) = -333.
Proof. eexists. vm_compute. repeat split. Qed.
Example C14_too_big : fia_init (inject_Z (2^30)) = Err EValueError. Proof. vm_compute. reflexivity. Qed.

(** ** C15 *)
Definition good_shapes (W : list (list Z)) (bias x : list Z) : Prop :=
  (forall w, In w W -> length w = length x) /\ length bias = length W.

Lemma exact_acc_sum zx zw x w b : acc_sum zx zw x w + b = exact_acc zx zw x w b.
Proof. reflexivity. Qed.

Theorem C15_requantization : forall si zx sw zw W bias so zo d l x,
  fc_build si zx sw zw W bias so zo d = Ok l ->
  good_shapes W bias x -> gmin d <= gmax d -> Z.abs zo <= 2 ^ 62 ->
  let M := (si * sw / so)%Q in
  (1 # 1000000 <= M)%Q ->
  exists y, fc_infer l (T1 x) = Ok (T1 y) /\ length y = length W /\
  forall j, (j < length W)%nat ->
    let acc := exact_acc zx zw x (nth j W []) (nth j bias 0) in
    Z.abs acc <= 2 ^ 31 ->
    exists v, nth j y 0 = clamp (gmin d) (gmax d) v /\
      (Qabs (inject_Z v - (inject_Z zo + M * inject_Z acc)) <= (1#2) + inject_Z (Z.abs acc) * (M * u31))%Q.
Proof.
  intros si zx sw zw W bias so zo d l x Hb [HW Hbias] Hd Hz M HM.
  destruct (fc_build_ok _ _ _ _ _ _ _ _ _ _ Hb) as (m & Hm & ->). fold M in Hm.
  destruct (fc_mult_props M m HM Hm) as (E & Hq & Hs & Hr).
  destruct (fc_infer_row zx zw W bias m zo d x HW Hbias) as (y & Y1 & Y2 & Y3).
  exists y. split; [exact Y1|]. split; [exact Y2|]. intros j Hj acc Hacc.
  rewrite (Y3 j Hj). rewrite exact_acc_sum. fold acc.
  rewrite fc_requant_exact; cbn [fc_mult fc_out_zp fc_dtype]; try assumption.
  exists ((acc * fia_q m + fia_round m) / 2 ^ fia_shift m + zo). split; [rewrite clamp_clip by exact Hd; reflexivity|].
  specialize (E acc). rewrite inject_Z_plus.
  setoid_replace (inject_Z ((acc * fia_q m + fia_round m) / 2 ^ fia_shift m) + inject_Z zo -
   (inject_Z zo + M * inject_Z acc))%Q with (inject_Z ((acc * fia_q m + fia_round m) / 2 ^ fia_shift m) - M * inject_Z acc)%Q by ring.
  exact E.
Qed.

(** Saturating form: the code is that close to the clipped real-valued result. *)
Theorem C15_close_to_clipped_real : forall si zx sw zw W bias so zo d l x,
  fc_build si zx sw zw W bias so zo d = Ok l ->
  good_shapes W bias x -> gmin d <= gmax d -> Z.abs zo <= 2 ^ 62 ->
  let M := (si * sw / so)%Q in
  (1 # 1000000 <= M)%Q ->
  exists y, fc_infer l (T1 x) = Ok (T1 y) /\ length y = length W /\
  forall j, (j < length W)%nat ->
    let acc := exact_acc zx zw x (nth j W []) (nth j bias 0) in
    Z.abs acc <= 2 ^ 31 ->
    (Qabs (inject_Z (nth j y 0%Z) - clampQ (gmin d) (gmax d) (inject_Z zo + M * inject_Z acc))
     <= (1#2) + inject_Z (Z.abs acc) * (M * u31))%Q.
Proof.
  intros si zx sw zw W bias so zo d l x Hb Hs Hd Hz M HM.
  destruct (C15_requantization si zx sw zw W bias so zo d l x Hb Hs Hd Hz HM) as (y & A & B & C).
  exists y. split; [exact A|]. split; [exact B|]. intros j Hj acc Hacc.
  destruct (C15_requantization si zx sw zw W bias so zo d l x Hb Hs Hd Hz HM) as (y' & A' & _ & C').
  rewrite A in A'. injection A' as <-.
  destruct (C' j Hj Hacc) as (v & -> & Hv). apply clampQ_close; [exact Hd|exact Hv].
Qed.

(** Outside int32 accumulators the int64 product overflows and the sign can flip. *)
Theorem C15_overflow_refuted : exists l bias,
  fc_build 1 0 1 0 [[0]] [bias] 1 0 int8 = Ok l /\ 0 < bias < 2 ^ 63 /\
  fc_infer l (T1 [0]) = Ok (T1 [-128]).
Proof. eexists; exists (2 ^ 33); split; [reflexivity|]. split; [lia|]. vm_compute. reflexivity. Qed.

Example C15_example : exists l,
  fc_build (1#10) 3 (1#20) 0 [[10; -20; 30]; [1; 2; 3]] [100; -50] (1#4) (-5) int8 = Ok l /\
  good_shapes [[10; -20; 30]; [1; 2; 3]] [100; -50] [50; -7; 120] /\
  (1#1000000 <= (1#10) * (1#20) / (1#4))%Q /\
  fc_infer l (T1 [50; -7; 120]) = Ok (T1 [81; 2]).
Proof.
  eexists. split; [reflexivity|]. split.
  - split; [|reflexivity]. simpl. intros w [<- | [<- | []]]; reflexivity.
  - split; [discriminate|]. vm_compute. reflexivity.
Qed.

(** numpy broadcasting of the bias: a one-element bias is shared by every neuron, a one-neuron layer is repeated
    for each bias entry, and any other length mismatch raises ValueError. *)
Definition with_params (l : fc) (W : list (list Z)) (bias : list Z) : fc :=
  mkfc (fc_in_zp l) W bias (fc_mult l) (fc_out_zp l) (fc_dtype l).

Lemma requant_params l W b W' b' : fc_requant (with_params l W b) = fc_requant (with_params l W' b').
Proof. unfold fc_requant. cbn [fc_mult fc_dtype fc_out_zp with_params]. reflexivity. Qed.

Theorem C15_bias_broadcast : forall l W b x,
  fc_infer (with_params l W [b]) (T1 x) = fc_infer (with_params l W (repeat b (length W))) (T1 x).
Proof.
  intros l W b x. cbn [fc_infer]. unfold fc_acc_1d. cbn [fc_w fc_bias with_params].
  assert (C : fc_center (with_params l W [b]) x = fc_center (with_params l W (repeat b (length W))) x) by reflexivity.
  rewrite C. generalize (fc_center (with_params l W (repeat b (length W))) x). intros c. clear C.
  rewrite (requant_params l W [b] W (repeat b (length W))). generalize (fc_requant (with_params l W (repeat b (length W)))). intros rq.
  destruct (mapM (fun w => dot64 w c) W) as [m|] eqn:E; [|reflexivity]. cbn [rbind]. apply mapM_length in E.
  assert (B : badd64 m [b] = badd64 m (repeat b (length W))).
  { rewrite <- E. clear. unfold badd64. rewrite repeat_length, Nat.eqb_refl.
    destruct m as [|u [|v m]]; [reflexivity|reflexivity|]. cbn [length Nat.eqb].
    f_equal. cbn [map repeat map2 length]. do 2 f_equal.
    induction m as [|z m IH]; [reflexivity|]. cbn [map repeat map2 length]. f_equal. exact IH. }
  rewrite B. destruct (badd64 m _) as [r|]; reflexivity.
Qed.

Theorem C15_one_neuron_broadcast : forall l w bias x, bias <> [] ->
  fc_infer (with_params l [w] bias) (T1 x) = fc_infer (with_params l (repeat w (length bias)) bias) (T1 x).
Proof.
  intros l w bias x NB. cbn [fc_infer]. unfold fc_acc_1d. cbn [fc_w fc_bias with_params].
  assert (C : fc_center (with_params l [w] bias) x = fc_center (with_params l (repeat w (length bias)) bias) x) by reflexivity.
  rewrite C. generalize (fc_center (with_params l (repeat w (length bias)) bias) x). intros c. clear C.
  rewrite (requant_params l [w] bias (repeat w (length bias)) bias).
  generalize (fc_requant (with_params l (repeat w (length bias)) bias)). intros rq.
  assert (R : mapM (fun w0 => dot64 w0 c) (repeat w (length bias)) =
              match dot64 w c with Ok r => Ok (repeat r (length bias)) | Err e => Err e end).
  { destruct bias as [|b0 bias]; [congruence|]. clear. cbn [length]. destruct (dot64 w c) as [r|e] eqn:D.
    - induction bias as [|b bs IH]; cbn [repeat mapM length] in *.
      + rewrite D. reflexivity.
      + rewrite D in *. cbn [rbind] in *. rewrite IH. reflexivity.
    - cbn [repeat mapM]. rewrite D. reflexivity. }
  rewrite R. cbn [mapM]. destruct (dot64 w c) as [r|e]; [|reflexivity]. cbn [rbind].
  assert (B : badd64 [r] bias = badd64 (repeat r (length bias)) bias).
  { unfold badd64. rewrite repeat_length, Nat.eqb_refl. destruct bias as [|u [|v bs]]; [reflexivity|reflexivity|].
    cbn [length Nat.eqb]. f_equal. cbn [map repeat map2]. do 2 f_equal.
    clear. induction bs as [|z bs IH]; [reflexivity|]. cbn [map repeat map2 length]. f_equal. exact IH. }
  rewrite B. destruct (badd64 _ _) as [q|]; reflexivity.
Qed.

Theorem C15_bias_length_mismatch : forall l W bias x,
  (forall w, In w W -> length w = length x) -> length bias <> length W ->
  length bias <> 1%nat -> length W <> 1%nat ->
  fc_infer (with_params l W bias) (T1 x) = Err EValueError.
Proof.
  intros l W bias x HW N N1 N2. cbn [fc_infer]. unfold fc_acc_1d. cbn [fc_w fc_bias with_params].
  rewrite (mapM_ok_map _ (fun w => i64 (dotZ w (fc_center (with_params l W bias) x)))).
  - cbn [rbind]. unfold badd64. rewrite map_length.
    destruct (Nat.eqb_spec (length W) (length bias)) as [A|_]; [congruence|].
    destruct W as [|w1 [|w2 W]]; destruct bias as [|b1 [|b2 bias]]; cbn [length map] in *; try congruence; reflexivity.
  - intros w Hw. apply dot64_ok'. unfold fc_center. rewrite map_length. apply HW, Hw.
Qed.

Example C15_broadcast_example : exists l,
  fc_build (1#10) 3 (1#20) 0 [[10; -20; 30]; [1; 2; 3]] [100] (1#4) (-5) int8 = Ok l /\
  fc_infer l (T1 [50; -7; 120]) = Ok (T1 [81; 5]) /\
  fc_infer (with_params l [[10; -20; 30]] [100; 200; 300]) (T1 [50; -7; 120]) = Ok (T1 [81; 83; 85]) /\
  fc_infer (with_params l [[10; -20; 30]; [1; 2; 3]] [100; 200; 300]) (T1 [50; -7; 120]) = Err EValueError.
Proof. eexists. split; [vm_compute; reflexivity|]. split; [vm_compute; reflexivity|]. split; vm_compute; reflexivity. Qed.

(** ** C16 *)
Definition row_in (d : gdtype) (y : list Z) : Prop := forall v, In v y -> gmin d <= v <= gmax d.

Theorem C16_range : forall si zx sw zw W bias so zo d l t r,
  fc_build si zx sw zw W bias so zo d = Ok l -> gmin d <= gmax d -> fc_infer l t = Ok r ->
  match r with T1 y => row_in d y | T2 ys => forall y, In y ys -> row_in d y | Tn _ => False end.
Proof.
  intros si zx sw zw W bias so zo d l t r Hb Hd H.
  destruct (fc_build_ok _ _ _ _ _ _ _ _ _ _ Hb) as (m & Hm & El).
  assert (Dl : fc_dtype l = d) by (rewrite El; reflexivity).
  assert (Rg : forall a, gmin d <= fc_requant l a <= gmax d).
  { intros a. rewrite <- Dl in *. apply fc_requant_range. exact Hd. }
  destruct t as [x|xs|n]; cbn [fc_infer] in H.
  - destruct (fc_acc_1d l x) as [a|]; [|discriminate]. cbn [rbind] in H. injection H as <-.
    intros v Hv. apply in_map_iff in Hv as (u & <- & _). apply Rg.
  - destruct (fc_acc_2d l xs) as [a|]; [|discriminate]. cbn [rbind] in H. injection H as <-.
    intros y Hy. apply in_map_iff in Hy as (u & <- & _).
    intros v Hv. apply in_map_iff in Hv as (u' & <- & _). apply Rg.
  - destruct (2 <? n)%nat; discriminate.
Qed.

Theorem C16_batch_is_rowwise : forall l xs ys,
  fc_infer l (T2 xs) = Ok (T2 ys) <-> Forall2 (fun x y => fc_infer l (T1 x) = Ok (T1 y)) xs ys.
Proof. exact fc_batch. Qed.

(** A row's result does not depend on the other rows of the batch. *)
Theorem C16_row_independent : forall l xs ys i x y,
  fc_infer l (T2 xs) = Ok (T2 ys) -> nth_error xs i = Some x -> nth_error ys i = Some y ->
  fc_infer l (T1 x) = Ok (T1 y).
Proof.
  intros l xs ys i x y H. apply fc_batch in H. revert i. induction H as [|a b xs ys H _ IH]; intros [|i] A B; simpl in *; try discriminate.
  - congruence.
  - eapply IH; eassumption.
Qed.

Theorem C16_total_on_good_shapes : forall l xs,
  (forall x w, In x xs -> In w (fc_w l) -> length w = length x) -> length (fc_bias l) = length (fc_w l) ->
  exists ys, fc_infer l (T2 xs) = Ok (T2 ys) /\ length ys = length xs /\ forall y, In y ys -> length y = length (fc_w l).
Proof.
  intros l xs H Hb.
  assert (G : exists ys, Forall2 (fun x y => fc_infer l (T1 x) = Ok (T1 y)) xs ys /\
              forall y, In y ys -> length y = length (fc_w l)).
  { induction xs as [|x xs IH].
    - exists []. split; [constructor|intros ? []].
    - destruct IH as (ys & A & B); [intros; apply H; [right|]; assumption|].
      assert (X : exists y, fc_infer l (T1 x) = Ok (T1 y) /\ length y = length (fc_w l)).
      { cbn [fc_infer]. unfold fc_acc_1d.
        rewrite (mapM_ok_map _ (fun w => i64 (dotZ w (fc_center l x)))).
        - cbn [rbind]. unfold badd64. rewrite map_length, Hb, Nat.eqb_refl. cbn [rbind].
          eexists; split; [reflexivity|]. rewrite map_length, map2_length; rewrite map_length; lia.
        - intros w Hw. apply dot64_ok'. unfold fc_center. rewrite map_length. apply H; [left; reflexivity|exact Hw]. }
      destruct X as (y & X1 & X2). exists (y :: ys). split; [constructor; assumption|].
      intros z [<- | Hz]; [exact X2|apply B, Hz]. }
  destruct G as (ys & A & B). exists ys. split; [apply fc_batch, A|]. split; [|exact B].
  clear -A. induction A; simpl; congruence.
Qed.

Theorem C16_more_dims_rejected : forall l t, (2 < tensor_ndim t)%nat -> fc_infer l t = Err EAssertionError.
Proof.
  intros l [x|xs|n] H; simpl in H; try lia. simpl. apply Nat.ltb_lt in H. rewrite H. reflexivity.
Qed.

Example C16_example : exists l,
  fc_build (1#10) 3 (1#20) 0 [[10; -20; 30]; [1; 2; 3]] [100; -50] (1#4) (-5) int8 = Ok l /\
  fc_infer l (T2 [[50; -7; 120]; [-128; 127; 0]]) = Ok (T2 [[81; 2]; [-81; -4]]).
Proof. eexists; split; [reflexivity|]. vm_compute. reflexivity. Qed.

(** ** C17 *)
Theorem C17_silent : forall si zx sw zw W bias so zo d l x,
  (si * sw / so < 1 # 1000000)%Q -> gmin d <= gmax d -> Z.abs zo <= 2 ^ 62 ->
  fc_build si zx sw zw W bias so zo d = Ok l -> good_shapes W bias x ->
  fc_infer l (T1 x) = Ok (T1 (repeat (clamp (gmin d) (gmax d) zo) (length W))).
Proof.
  intros si zx sw zw W bias so zo d l x HM Hd Hz Hb [HW Hbias].
  destruct (fc_build_ok _ _ _ _ _ _ _ _ _ _ Hb) as (m & Hm & ->).
  rewrite fc_mult_small in Hm by exact HM. assert (Em : m = mkfia 0 31 (2 ^ 30)) by congruence. subst m.
  destruct (fc_infer_row zx zw W bias (mkfia 0 31 (2 ^ 30)) zo d x HW Hbias) as (y & Y1 & Y2 & Y3).
  cbv zeta in Y1. rewrite Y1. do 2 f_equal.
  apply nth_ext with (d := 0) (d' := 0); [rewrite repeat_length; exact Y2|].
  intros j Hj. rewrite Y2 in Hj. rewrite (Y3 j Hj).
  rewrite fc_requant_silent by exact Hz. rewrite clamp_clip by exact Hd.
  rewrite nth_indep with (d' := clipZ (gmin d) (gmax d) zo) by (rewrite repeat_length; exact Hj).
  symmetry. apply nth_repeat.
Qed.

Theorem C17_buildable_iff : forall si zx sw zw W bias so zo d,
  (exists l, fc_build si zx sw zw W bias so zo d = Ok l) <->
  (~ so == 0 /\ si * sw / so < inject_Z (2 ^ 30) * (1 - u32))%Q.
Proof.
  intros. rewrite <- fc_mult_ok_iff. unfold fc_build. split.
  - intros [l H]. destruct (fc_mult_of si sw so) as [m|] eqn:E; [|discriminate]. apply fc_mult_of_inv in E as [N E]. split; [exact N|]. exists m. exact E.
  - intros [N [m H]]. rewrite (fc_mult_of_nz _ _ _ N), H. eexists; reflexivity.
Qed.

(** A zero output scale in the file is ZeroDivisionError when the layer is built. *)
Theorem C17_zero_scale : forall si zx sw zw W bias so zo d, (so == 0)%Q ->
  fc_build si zx sw zw W bias so zo d = Err EZeroDivision.
Proof. intros si zx sw zw W bias so zo d E. unfold fc_build, fc_mult_of. apply Qeq_bool_iff in E. rewrite E. reflexivity. Qed.

Theorem C17_big_multiplier_rejected : forall si zx sw zw W bias so zo d,
  (inject_Z (2 ^ 30) <= si * sw / so)%Q ->
  fc_build si zx sw zw W bias so zo d = Err EAssertionError.
Proof.
  intros si zx sw zw W bias so zo d H. unfold fc_build.
  rewrite fc_mult_of_nz. 2:{ intros Z0. unfold Qdiv in H. rewrite Z0 in H. change (/ 0)%Q with 0%Q in H. rewrite Qmult_0_r in H. vm_compute in H. apply H. reflexivity. }
  destruct (fc_mult_build (si * sw / so)) as [m|e] eqn:E.
  - exfalso. assert (X : exists f, fc_mult_build (si * sw / so)%Q = Ok f) by (exists m; exact E).
    apply fc_mult_ok_iff in X. assert (pow2 30 * (1 - pow2 (-32)) <= inject_Z (2 ^ 30))%Q by discriminate. lra.
  - apply fc_mult_err in E. subst e. reflexivity.
Qed.

(** Such layers are reachable: an ordinary scale triple. *)
Example C17_example : exists l, fc_build (1#1000) 0 (1#1000) 0 [[127; 127]] [2000] 2 7 int8 = Ok l /\
  fc_infer l (T1 [127; 127]) = Ok (T1 [7]).
Proof. eexists; split; [reflexivity|]. vm_compute. reflexivity. Qed.

(** ** C50 *)
(** The float dense layer, one neuron. *)
Definition dense (x w : list Q) (b : Q) : Q :=
  (sumQ_upto (length x) (fun i => nth i x 0 * nth i w 0) + b)%Q.

Lemma prod_error xh wh x w ex ew : (0 <= ex)%Q -> (0 <= ew)%Q ->
  (Qabs (xh - x) <= ex)%Q -> (Qabs (wh - w) <= ew)%Q ->
  (Qabs (xh * wh - x * w) <= ex * Qabs w + ew * Qabs x + ex * ew)%Q.
Proof.
  intros Hex Hew A B.
  setoid_replace (xh * wh - x * w)%Q with ((xh - x) * w + (wh - w) * x + (xh - x) * (wh - w))%Q by ring.
  eapply Qle_trans; [apply Qabs_triangle|]. apply Qplus_le_compat.
  - eapply Qle_trans; [apply Qabs_triangle|]. apply Qplus_le_compat; rewrite Qabs_Qmult;
      apply Qmult_le_compat_r; try assumption; apply Qabs_nonneg.
  - rewrite Qabs_Qmult. apply Qle_trans with (ex * Qabs (wh - w))%Q.
    + apply Qmult_le_compat_r; [assumption|apply Qabs_nonneg].
    + rewrite !(Qmult_comm ex). apply Qmult_le_compat_r; assumption.
Qed.

Lemma sumQ_of_Z (f : nat -> Z) l c : (sumQ (map (fun i => c * inject_Z (f i)) l) == c * inject_Z (sumZ (map f l)))%Q.
Proof.
  induction l as [|a l IH]; cbn [map sumQ sumZ fold_right]; [ring|].
  fold (sumQ (map (fun i => c * inject_Z (f i)) l))%Q. fold (sumZ (map f l)).
  rewrite IH, inject_Z_plus. ring.
Qed.

(** General form: any codes whose reconstruction errors are at most ex, ew, eb (round to nearest gives
    half a step; a floor/ceil policy gives a whole step). *)
Theorem C50_end_to_end : forall si zx sw zw so zo d (W : list (list Z)) bias l xq (x : list Q) ex ew eb,
  (0 < si)%Q -> (0 < sw)%Q -> (0 < so)%Q -> (0 <= ex)%Q -> (0 <= ew)%Q ->
  fc_build si zx sw zw W bias so zo d = Ok l -> good_shapes W bias xq ->
  gmin d <= gmax d -> Z.abs zo <= 2 ^ 62 -> (1 # 1000000 <= si * sw / so)%Q ->
  length x = length xq ->
  (forall i, (i < length x)%nat -> (Qabs (si * inject_Z (nth i xq 0%Z - zx) - nth i x 0) <= ex)%Q) ->
  exists y, fc_infer l (T1 xq) = Ok (T1 y) /\
  forall j (w : list Q) (b : Q), (j < length W)%nat ->
    (forall i, (i < length x)%nat -> (Qabs (sw * inject_Z (nth i (nth j W []) 0%Z - zw) - nth i w 0) <= ew)%Q) ->
    (Qabs (si * sw * inject_Z (nth j bias 0%Z) - b) <= eb)%Q ->
    let acc := exact_acc zx zw xq (nth j W []) (nth j bias 0) in
    Z.abs acc <= 2 ^ 31 ->
    gmin d < nth j y 0 < gmax d ->
    (Qabs (so * inject_Z (nth j y 0%Z - zo) - dense x w b) <=
       sumQ_upto (length x) (fun i => ex * Qabs (nth i w 0) + ew * Qabs (nth i x 0) + ex * ew)
       + eb + so * (1#2) + si * sw * inject_Z (Z.abs acc) * u31)%Q.
Proof.
  intros si zx sw zw so zo d W bias l xq x ex ew eb Psi Psw Pso Pex Pew Hb Hs Hd Hz HM Lx Hx.
  destruct (C15_requantization si zx sw zw W bias so zo d l xq Hb Hs Hd Hz HM) as (y & Y1 & Y2 & Y3).
  exists y. split; [exact Y1|]. intros j w b Hj Hw Hbb acc Hacc Hin.
  destruct (Y3 j Hj Hacc) as (v & Hv & Ev). fold acc in Ev.
  assert (V : nth j y 0 = v).
  { rewrite Hv in Hin |- *. unfold clamp in *. destruct (v <? gmin d) eqn:A; [lia|].
    destruct (gmax d <? v) eqn:B; [lia|reflexivity]. }
  rewrite V. clear Hv Hin V.
  set (M := (si * sw / so)%Q) in *.
  assert (MS : (so * M == si * sw)%Q) by (unfold M; field; lra).
  (* real value of the accumulator *)
  assert (AC : (si * sw * inject_Z acc ==
     sumQ_upto (length x) (fun i => (si * inject_Z (nth i xq 0%Z - zx)) * (sw * inject_Z (nth i (nth j W []) 0%Z - zw)))
     + si * sw * inject_Z (nth j bias 0%Z))%Q).
  { unfold acc, exact_acc. rewrite inject_Z_plus, Qmult_plus_distr_r. apply Qplus_inj_r.
    unfold sumZ_upto, sumQ_upto, sum_upto. rewrite Lx.
    rewrite <- (sumQ_of_Z (fun i => (nth i xq 0 - zx) * (nth i (nth j W []) 0 - zw)) (seq 0 (length xq)) (si * sw)).
    apply sumQ_map_ext. intros i _. rewrite inject_Z_mult. ring. }
  assert (D : (Qabs (si * sw * inject_Z acc - dense x w b) <=
     sumQ_upto (length x) (fun i => ex * Qabs (nth i w 0) + ew * Qabs (nth i x 0) + ex * ew) + eb)%Q).
  { rewrite AC. unfold dense.
    set (A := sumQ_upto (length x) _). set (B := sumQ_upto (length x) (fun i => nth i x 0 * nth i w 0)%Q).
    set (C := sumQ_upto (length x) (fun i => _ + _ + _)%Q).
    setoid_replace (A + si * sw * inject_Z (nth j bias 0%Z) - (B + b))%Q
      with ((A - B) + (si * sw * inject_Z (nth j bias 0%Z) - b))%Q by ring.
    eapply Qle_trans; [apply Qabs_triangle|]. apply Qplus_le_compat; [|exact Hbb].
    unfold A, B, C, sumQ_upto, sum_upto. 
    change (fold_right Qplus 0%Q) with sumQ. rewrite <- sumQ_map_minus.
    eapply Qle_trans; [apply Qabs_sum|]. apply sumQ_le. intros i Hi. apply in_seq in Hi.
    apply prod_error; [exact Pex|exact Pew|apply Hx; lia|apply Hw; lia]. }
  set (C := sumQ_upto (length x) (fun i => _ + _ + _)%Q) in *.
  setoid_replace (so * inject_Z (v - zo) - dense x w b)%Q
    with (so * (inject_Z v - (inject_Z zo + M * inject_Z acc)) + (si * sw * inject_Z acc - dense x w b))%Q
    by (rewrite <- MS, inject_Z_minus; ring).
  eapply Qle_trans; [apply Qabs_triangle|].
  rewrite Qabs_Qmult, (Qabs_pos so) by lra.
  assert (F : (so * Qabs (inject_Z v - (inject_Z zo + M * inject_Z acc)) <=
     so * (1#2) + si * sw * inject_Z (Z.abs acc) * u31)%Q).
  { apply Qle_trans with (so * ((1#2) + inject_Z (Z.abs acc) * (M * u31)))%Q.
    - apply Qmult_le_l; [exact Pso|exact Ev].
    - rewrite <- MS. apply Qle_lteq. right. ring. }
  lra.
Qed.

Lemma quant1_err d zp s x : within_int32 d -> (0 < s)%Q ->
  (inject_Z (gmin d) <= real_code x s zp <= inject_Z (gmax d))%Q ->
  (Qabs (s * inject_Z (quant1 d zp s x - zp) - x) <= s * (1#2))%Q.
Proof.
  intros Hd Hs H. rewrite Qabs_Qminus, (Qmult_comm s), dist_scale by exact Hs.
  apply Qmult_le_l; [exact Hs|]. unfold quant1. rewrite q_round_clip by exact Hd.
  fold (real_code x s zp). set (r := real_code x s zp) in *.
  destruct H as [H1 H2].
  assert (F : gmin d <= Qfloor (r + (1#2)) ).
  { apply Qfloor_ge. lra. }
  destruct (Z_le_gt_dec (Qfloor (r + (1#2))) (gmax d)) as [G|G].
  - rewrite clipZ_id by lia. destruct (Qfloor_bounds (r + (1#2))). apply Qabs_Qle_condition. split; lra.
  - replace (clipZ (gmin d) (gmax d) (Qfloor (r + (1 # 2)))) with (gmax d) by (unfold clipZ; lia).
    assert (X : (inject_Z (gmax d + 1) <= inject_Z (Qfloor (r + (1#2))))%Q) by (apply (proj1 (Zle_inj _ _)); lia).
    rewrite inject_Z_plus in X. change (inject_Z 1) with 1%Q in X.
    destruct (Qfloor_bounds (r + (1#2))). apply Qabs_Qle_condition. split; lra.
Qed.

(** The quantizer's own codes (round to nearest everywhere, no input saturates). *)
Theorem C50_quantizer_codes : forall si zx sw zw so zo dx dw db d (x : list Q) (W : list (list Q)) (B : list Q) l,
  within_int32 dx -> within_int32 dw -> within_int32 db -> gmin d <= gmax d -> Z.abs zo <= 2 ^ 62 ->
  (0 < si)%Q -> (0 < sw)%Q -> (0 < so)%Q -> (1 # 1000000 <= si * sw / so)%Q ->
  let sb := (si * sw)%Q in
  let fits dt s zp v := (inject_Z (gmin dt) <= real_code v s zp <= inject_Z (gmax dt))%Q in
  (forall v, In v x -> fits dx si zx v) ->
  (forall w v, In w W -> In v w -> fits dw sw zw v) ->
  (forall v, In v B -> fits db sb 0 v) ->
  (forall w, In w W -> length w = length x) -> length B = length W ->
  let xq := map (quant1 dx zx si) x in
  let Wq := map (map (quant1 dw zw sw)) W in
  let Bq := map (quant1 db 0 sb) B in
  fc_build si zx sw zw Wq Bq so zo d = Ok l ->
  exists y, fc_infer l (T1 xq) = Ok (T1 y) /\
  forall j, (j < length W)%nat ->
    let w := nth j W [] in
    let acc := exact_acc zx zw xq (nth j Wq []) (nth j Bq 0) in
    Z.abs acc <= 2 ^ 31 -> gmin d < nth j y 0 < gmax d ->
    (Qabs (so * inject_Z (nth j y 0%Z - zo) - dense x w (nth j B 0)) <=
       sumQ_upto (length x) (fun i => si * (1#2) * Qabs (nth i w 0) + sw * (1#2) * Qabs (nth i x 0)
                                      + si * (1#2) * (sw * (1#2)))
       + si * sw * (1#2) + so * (1#2) + si * sw * inject_Z (Z.abs acc) * u31)%Q.
Proof.
  intros si zx sw zw so zo dx dw db d x W B l Ddx Ddw Ddb Hd Hz Psi Psw Pso HM sb fits Fx FW FB LW LB xq Wq Bq Hb.
  assert (Psb : (0 < sb)%Q) by (unfold sb; nra).
  assert (GS : good_shapes Wq Bq xq).
  { split; [|unfold Bq, Wq; rewrite !map_length; exact LB].
    intros w Hw. apply in_map_iff in Hw as (w' & <- & Hw). unfold xq. rewrite !map_length. apply LW, Hw. }
  destruct (C50_end_to_end si zx sw zw so zo d Wq Bq l xq x (si * (1#2)) (sw * (1#2)) (sb * (1#2))) as (y & Y1 & Y2);
    try assumption; try lra.
  - unfold xq. rewrite map_length. reflexivity.
  - intros i Hi. unfold xq. rewrite nth_indep with (d' := quant1 dx zx si 0) by (rewrite map_length; exact Hi).
    rewrite map_nth. apply quant1_err; [exact Ddx|exact Psi|]. apply Fx. apply nth_In, Hi.
  - exists y. split; [exact Y1|]. intros j Hj w acc Hacc Hin.
    unfold sb in Y2. apply (Y2 j w (nth j B 0%Q)); try assumption.
    + unfold Wq. rewrite map_length. exact Hj.
    + intros i Hi. unfold Wq. rewrite nth_indep with (d' := map (quant1 dw zw sw) []) by (rewrite map_length; exact Hj).
      rewrite map_nth. fold w. assert (Lw : length w = length x) by (apply LW, nth_In, Hj).
      rewrite nth_indep with (d' := quant1 dw zw sw 0) by (rewrite map_length; lia). rewrite map_nth.
      apply quant1_err; [exact Ddw|exact Psw|]. apply (FW w); apply nth_In; [exact Hj|lia].
    + unfold Bq. rewrite nth_indep with (d' := quant1 db 0 sb 0) by (rewrite map_length; lia). rewrite map_nth.
      pose proof (quant1_err db 0 sb (nth j B 0%Q) Ddb Psb) as Q1. rewrite Z.sub_0_r in Q1. apply Q1.
      apply FB, nth_In. lia.
Qed.

Example C50_example :
  let x := [1#2; -(1#3); 2#1]%Q in let W := [[1#4; 1#5; -(1#7)]; [1; -1; 1#2]]%Q in let B := [1#10; -(1#10)]%Q in
  let si := (1#60)%Q in let sw := (1#120)%Q in
  exists l, fc_build si 3 sw 0 (map (map (quant1 int8 0 sw)) W) (map (quant1 int32 0 (si * sw)) B) (1#50) (-7) int8 = Ok l /\
   fc_infer l (T1 (map (quant1 int8 3 si) x)) = Ok (T1 [-13; 80]).
Proof. eexists; split; [reflexivity|]. vm_compute. reflexivity. Qed.
