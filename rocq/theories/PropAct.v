(** Property C59: the TANH and LOGISTIC layers of the inference engine, which compute the float
    activation between a dequantization and a requantization with FIXED output parameters
    (1/128, 0) resp. (1/256, -128). The float function is a parameter: the theorems hold for every
    function with the range of tanh resp. sigmoid. *)
From Verif Require Import Base BaseProofs DtypeModel QuantModel QuantProofs EngineModel EngineProofs PropCore PropEngine.
From Coq Require Import Qabs Lqa.
Open Scope Z_scope.
Open Scope list_scope.

(** The value the consumer of the layer reads: scale 1/128 and zero point 0 for TANH, scale 1/256
    and zero point -128 for LOGISTIC (the restriction written in both docstrings). *)
Definition tanh_reads (q : Z) : Q := (inject_Z q / 128)%Q.
Definition logistic_reads (q : Z) : Q := (inject_Z (q + 128) / 256)%Q.
(** The real value an int8 code stands for. *)
Definition means (s : Q) (zp q : Z) : Q := (inject_Z (q - zp) * s)%Q.

Lemma i8_fits : fits_i32 i8. Proof. unfold fits_i32, i8; simpl; lia. Qed.
Lemma i8_nowrap zp : in_dtype int8 zp -> zp_nowrap i8 zp.
Proof. intros [A B]. change (gmin int8) with (-128) in A. change (gmax int8) with 127 in B.
  unfold zp_nowrap. change (gmin i8) with (-128). change (gmax i8) with 127. lia. Qed.
Lemma deq_means s zp x : in_dtype int8 zp -> in_dtype int8 x -> dequant1 zp s x = means s zp x.
Proof.
  intros A B. unfold means. apply (dequant1_nowrap i8).
  - exact i8_fits.
  - now apply i8_nowrap.
  - exact B.
Qed.
Lemma tanh_reads_deq q : in_dtype int8 q -> (dequant1 0 (1#128) q == tanh_reads q)%Q.
Proof.
  intros A. rewrite (deq_means _ 0 q) by (assumption || (unfold in_dtype, int8; simpl; lia)).
  unfold means, tanh_reads. rewrite Z.sub_0_r. field.
Qed.
Lemma logistic_reads_deq q : in_dtype int8 q -> (dequant1 (-128) (1#256) q == logistic_reads q)%Q.
Proof.
  intros A. rewrite (deq_means _ (-128) q) by (assumption || (unfold in_dtype, int8; simpl; lia)).
  unfold means, logistic_reads. replace (q - -128) with (q + 128) by lia. field.
Qed.
Lemma q8_range zp s x : in_dtype int8 (quant1 i8 zp s x).
Proof. exact (q_round_range i8 (1#2) _ i8_fits). Qed.

(** ** Range: the result is always an int8 code, whatever the float function returns. *)
Theorem C59_in_range : forall f is iz x,
  in_dtype int8 (tanh_infer1 f is iz x) /\ in_dtype int8 (logistic_infer1 f is iz x).
Proof. intros. split; apply q8_range. Qed.

(** ** Accuracy. Half an output step, except in the last half step below the upper end of the
    range, which int8 cannot represent: a whole step there. *)
Theorem C59_tanh_error : forall f is iz x,
  in_dtype int8 iz -> in_dtype int8 x ->
  let y := f (means is iz x) in
  (-1 <= y <= 1 ->
   Qabs (y - tanh_reads (tanh_infer1 f is iz x)) <= 1 # 128)%Q /\
  (-1 <= y <= 127 # 128 ->
   Qabs (y - tanh_reads (tanh_infer1 f is iz x)) <= 1 # 256)%Q.
Proof.
  intros f is iz x A B y. unfold tanh_infer1. rewrite (deq_means is iz x A B). fold y.
  assert (Z0 : zp_nowrap i8 0) by (unfold zp_nowrap, i8; simpl; lia).
  assert (H2 : (-1 <= y <= 127 # 128 -> Qabs (y - tanh_reads (quant1 i8 0 (1#128) y)) <= 1 # 256)%Q).
  { intros [L U]. rewrite <- tanh_reads_deq by apply q8_range.
    assert (E : (y / (1#128) == y * 128)%Q) by field.
    eapply Qle_trans; [apply quant1_half|]; [exact i8_fits|exact Z0|reflexivity| |discriminate].
    rewrite E. change (inject_Z 0) with 0%Q. change (inject_Z (gmin i8)) with (-128#1)%Q. change (inject_Z (gmax i8)) with (127#1)%Q.
    split; lra. }
  split; [|exact H2]. intros [L U]. destruct (Qlt_le_dec y (127#128)) as [Lt|Ge].
  - eapply Qle_trans; [apply H2; split; lra|discriminate].
  - rewrite quant1_saturate_high.
    + change (gmax i8) with 127. unfold tanh_reads. change (inject_Z 127 / 128)%Q with (127 # 128)%Q.
      apply Qabs_Qle_condition. split; lra.
    + exact i8_fits.
    + assert (E : (y / (1#128) == y * 128)%Q) by field. rewrite E.
      change (inject_Z 0) with 0%Q. change (inject_Z (gmax i8)) with (127#1)%Q. lra.
Qed.

Theorem C59_logistic_error : forall f is iz x,
  in_dtype int8 iz -> in_dtype int8 x ->
  let y := f (means is iz x) in
  (0 <= y <= 1 ->
   Qabs (y - logistic_reads (logistic_infer1 f is iz x)) <= 1 # 256)%Q /\
  (0 <= y <= 255 # 256 ->
   Qabs (y - logistic_reads (logistic_infer1 f is iz x)) <= 1 # 512)%Q.
Proof.
  intros f is iz x A B y. unfold logistic_infer1. rewrite (deq_means is iz x A B). fold y.
  assert (Z0 : zp_nowrap i8 (-128)) by (unfold zp_nowrap, i8; simpl; lia).
  assert (E : (y / (1#256) == y * 256)%Q) by field.
  assert (H2 : (0 <= y <= 255 # 256 -> Qabs (y - logistic_reads (quant1 i8 (-128) (1#256) y)) <= 1 # 512)%Q).
  { intros [L U]. rewrite <- logistic_reads_deq by apply q8_range.
    eapply Qle_trans; [apply quant1_half|]; [exact i8_fits|exact Z0|reflexivity| |discriminate].
    rewrite E. change (inject_Z (-128)) with (-128#1)%Q. change (inject_Z (gmin i8)) with (-128#1)%Q. change (inject_Z (gmax i8)) with (127#1)%Q.
    split; lra. }
  split; [|exact H2]. intros [L U]. destruct (Qlt_le_dec y (255#256)) as [Lt|Ge].
  - eapply Qle_trans; [apply H2; split; lra|discriminate].
  - rewrite quant1_saturate_high.
    + change (gmax i8) with 127. unfold logistic_reads. change (inject_Z (127 + 128) / 256)%Q with (255 # 256)%Q.
      apply Qabs_Qle_condition. split; lra.
    + exact i8_fits.
    + rewrite E. change (inject_Z (-128)) with (-128#1)%Q. change (inject_Z (gmax i8)) with (127#1)%Q. lra.
Qed.

(** The whole-step bound at the top is attained: an activation that reaches 1 is off by one step. *)
Theorem C59_top_is_one_step_off :
  (forall f is iz x, in_dtype int8 iz -> in_dtype int8 x -> f (means is iz x) = 1%Q ->
   tanh_infer1 f is iz x = 127 /\ (1 - tanh_reads (tanh_infer1 f is iz x) == 1 # 128)%Q /\
   logistic_infer1 f is iz x = 127 /\ (1 - logistic_reads (logistic_infer1 f is iz x) == 1 # 256)%Q).
Proof.
  intros f is iz x A B E. unfold tanh_infer1, logistic_infer1. rewrite (deq_means is iz x A B), E.
  repeat split; vm_compute; reflexivity.
Qed.

(** ** A monotone activation gives a monotone layer (positive input scale). *)
Theorem C59_monotone : forall f is iz x y,
  (forall a b, a <= b -> f a <= f b)%Q -> (0 < is)%Q ->
  in_dtype int8 iz -> in_dtype int8 x -> in_dtype int8 y -> x <= y ->
  tanh_infer1 f is iz x <= tanh_infer1 f is iz y /\ logistic_infer1 f is iz x <= logistic_infer1 f is iz y.
Proof.
  intros f is iz x y M P A B C L.
  assert (D : (dequant1 iz is x <= dequant1 iz is y)%Q).
  { rewrite (deq_means is iz x A B), (deq_means is iz y A C). unfold means.
    apply Qmult_le_compat_r; [|lra]. rewrite <- Zle_Qle. lia. }
  split; apply quant1_mono; try exact i8_fits; try reflexivity; now apply M.
Qed.

(** ** The direct layer and the LUT layer agree: the table built by create_LUT for the same input
    parameters and the fixed output parameters, looked up by the LUT operator, gives the codes the
    direct layer computes, for every batch of int8 codes. *)
Theorem C59_lut_agrees : forall f is iz codes,
  codes <> [] -> (forall q, In q codes -> in_dtype int8 q) ->
  (do l <- lut_from_node (Some (json_plain i8 f is iz (1#128) 0)); lut_infer l codes)
    = Ok (map (tanh_infer1 f is iz) codes) /\
  (do l <- lut_from_node (Some (json_plain i8 f is iz (1#256) (-128))); lut_infer l codes)
    = Ok (map (logistic_infer1 f is iz) codes).
Proof.
  intros f is iz codes N H. split; (rewrite C18_plain_table; [|exact N|exact H]); reflexivity.
Qed.

(** The hypotheses are met: the layer of the repository's own unit test (scale 0.0588817298412323,
    zero point 23), with the rational sigmoid-shaped functions x/(1+|x|) and (1+x/(1+|x|))/2. *)
Example C59_example :
  let th := fun x => (x / (1 + Qabs x))%Q in
  let sg := fun x => ((1 + x / (1 + Qabs x)) / 2)%Q in
  map (tanh_infer1 th (588817298412323 # 10000000000000000) 23) [42; 49; 28; -128; 127; 23]
    = [68; 77; 29; -115; 110; 0] /\
  map (logistic_infer1 sg (588817298412323 # 10000000000000000) 23) [42; 49; 28; -128; 127; 23]
    = [68; 77; 29; -115; 110; 0].
Proof. vm_compute. split; reflexivity. Qed.
