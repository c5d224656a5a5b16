(** Property C64: the direct QLinearSigmoid layer of the ONNX engine. *)
From Verif Require Import Base BaseProofs DtypeModel QuantModel QuantProofs LutModel FcModel EngineModel EngineProofs OnnxModel PropCore PropEngine.
From Coq Require Import Lqa.
Open Scope Z_scope.
Open Scope list_scope.

Definition byte (v : Z) : Prop := 0 <= v <= 255.
(** the real number a uint8 code stands for *)
Definition stands (s : Q) (zp c : Z) : Q := (inject_Z (c - zp) * s)%Q.
Lemma u8_fits : fits_i32 u8. Proof. unfold fits_i32, u8; simpl; lia. Qed.
Lemma u8_nowrap z : byte z -> zp_nowrap u8 z. Proof. unfold byte, zp_nowrap. change (gmin u8) with 0. change (gmax u8) with 255. lia. Qed.
Lemma u8_deq s z c : byte z -> byte c -> dequant1 z s c = stands s z c.
Proof. intros Hz Hc. apply (dequant1_nowrap u8); [exact u8_fits|now apply u8_nowrap|exact Hc]. Qed.

(** Shape kept, every output code a byte. *)
Theorem C64_shape_range : forall sig is iz os oz x,
  nd_shape (qsigmoid_infer sig is iz os oz x) = nd_shape x /\ forall idx, byte (nd_get (qsigmoid_infer sig is iz os oz x) idx).
Proof. intros. split; [reflexivity|]. intros idx. apply (q_round_range u8). exact u8_fits. Qed.
(** The output code is the best one: no byte stands for a value closer to the sigmoid of what the input code stands for. *)
Theorem C64_best_code : forall sig is iz os oz x idx k,
  byte iz -> byte oz -> (0 < os)%Q -> byte (nd_get x idx) -> byte k ->
  let y := sig (stands is iz (nd_get x idx)) in
  (Qabs (y - stands os oz (nd_get (qsigmoid_infer sig is iz os oz x) idx)) <= Qabs (y - stands os oz k))%Q.
Proof.
  intros sig is iz os oz x idx k Hi Ho P Hx Hk y.
  assert (E : nd_get (qsigmoid_infer sig is iz os oz x) idx = quant1 u8 oz os y).
  { unfold y. rewrite <- (u8_deq is iz (nd_get x idx) Hi Hx). reflexivity. }
  rewrite E. rewrite <- (u8_deq os oz k Ho Hk). rewrite <- u8_deq; [|exact Ho|apply (q_round_range u8), u8_fits].
  apply quant1_nearest; [exact u8_fits|now apply u8_nowrap|exact P|exact Hk].
Qed.
(** Within half an output step whenever the value is in the range of the output parameters; the usual parameters (1/255, 0) and
    (1/256, 0) reach half a step resp. a whole step for every value in [0, 1]. *)
Theorem C64_half_step : forall sig is iz os oz x idx,
  byte iz -> byte oz -> (0 < os)%Q -> byte (nd_get x idx) ->
  let y := sig (stands is iz (nd_get x idx)) in
  (stands os oz 0 <= y <= stands os oz 255)%Q ->
  (Qabs (y - stands os oz (nd_get (qsigmoid_infer sig is iz os oz x) idx)) <= os * (1#2))%Q.
Proof.
  intros sig is iz os oz x idx Hi Ho P Hx y [L U].
  assert (E : nd_get (qsigmoid_infer sig is iz os oz x) idx = quant1 u8 oz os y).
  { unfold y. rewrite <- (u8_deq is iz (nd_get x idx) Hi Hx). reflexivity. }
  rewrite E. rewrite <- u8_deq; [|exact Ho|apply (q_round_range u8), u8_fits].
  apply quant1_half; [exact u8_fits|now apply u8_nowrap|exact P|].
  unfold stands in L, U. rewrite inject_Z_minus in L, U. cbn [gmin gmax u8].
  split.
  - assert (A : (inject_Z 0 - inject_Z oz <= y / os)%Q) by (apply Qle_shift_div_l; assumption). lra.
  - assert (A : (y / os <= inject_Z 255 - inject_Z oz)%Q) by (apply Qle_shift_div_r; assumption). lra.
Qed.
Theorem C64_usual_parameters : forall sig is iz x idx,
  byte iz -> byte (nd_get x idx) ->
  let y := sig (stands is iz (nd_get x idx)) in (0 <= y <= 1)%Q ->
  (Qabs (y - stands (1#255) 0 (nd_get (qsigmoid_infer sig is iz (1#255) 0 x) idx)) <= 1#510)%Q /\
  (Qabs (y - stands (1#256) 0 (nd_get (qsigmoid_infer sig is iz (1#256) 0 x) idx)) <= 1#256)%Q.
Proof.
  intros sig is iz x idx Hi Hx y [L U]. assert (B0 : byte 0) by (unfold byte; lia). split.
  - apply (C64_half_step sig is iz (1#255) 0 x idx Hi B0 eq_refl Hx). assert (E0 : (stands (1#255) 0 0 == 0)%Q) by reflexivity. rewrite E0. split; [exact L|]. assert (E : (stands (1#255) 0 255 == 1)%Q) by reflexivity. rewrite E. exact U.
  - destruct (Qlt_le_dec (255#256) y) as [A|A].
    + eapply Qle_trans; [apply (C64_best_code sig is iz (1#256) 0 x idx 255 Hi B0 eq_refl Hx); unfold byte; lia|].
      fold y. assert (E : (stands (1#256) 0 255 == 255#256)%Q) by reflexivity. rewrite E. apply Qabs_Qle_condition. split; lra.
    + eapply Qle_trans; [apply (C64_half_step sig is iz (1#256) 0 x idx Hi B0 eq_refl Hx)|discriminate].
      fold y. assert (E : (stands (1#256) 0 255 == 255#256)%Q) by reflexivity. assert (E0 : (stands (1#256) 0 0 == 0)%Q) by reflexivity. rewrite E, E0. split; [exact L|exact A].
Qed.
(** A monotone activation gives a monotone layer. *)
Theorem C64_monotone : forall sig is iz os oz x i j,
  (forall a b, (a <= b)%Q -> (sig a <= sig b)%Q) -> (0 <= is)%Q -> (0 < os)%Q -> byte iz -> byte (nd_get x i) -> byte (nd_get x j) ->
  nd_get x i <= nd_get x j -> nd_get (qsigmoid_infer sig is iz os oz x) i <= nd_get (qsigmoid_infer sig is iz os oz x) j.
Proof.
  intros sig is iz os oz x i j M P1 P2 Hz Hi Hj L.
  change (quant1 u8 oz os (sig (dequant1 iz is (nd_get x i))) <= quant1 u8 oz os (sig (dequant1 iz is (nd_get x j)))).
  apply quant1_mono; [exact u8_fits|exact P2|]. apply M. rewrite !u8_deq by assumption. unfold stands.
  apply Qmult_le_compat_r; [|exact P1]. apply (proj1 (Zle_inj _ _)). lia.
Qed.
(** The converter replaces the layer by a (reduced) table (SigmoidLUT): the table layer gives the same codes. *)
Theorem C64_table_agrees : forall sig is iz os oz codes, codes <> [] -> (forall c, In c codes -> byte c) ->
  forall depth m,
  (do l <- lut_from_node (Some (json_reduced u8 sig is iz os oz depth m)); lut_infer l codes) =
  Ok (nd_to_list (qsigmoid_infer sig is iz os oz (nd_of_list 0 codes))).
Proof.
  intros sig is iz os oz codes NE H depth m. rewrite C18_reduced_table; [|exact NE|exact H]. f_equal.
  change (qsigmoid_infer sig is iz os oz (nd_of_list 0 codes)) with (nd_map (fun c => quant1 u8 oz os (sig (dequant1 iz is c))) (nd_of_list 0 codes)).
  unfold nd_to_list, nd_of_list, nd_map. cbn [nd_shape nd_get].
  apply nth_ext with (d := 0) (d' := 0); [now rewrite !map_length, seq_length|]. intros i Hi. rewrite map_length in Hi.
  rewrite nth_indep with (d' := requantized u8 sig is iz os oz 0) by now rewrite map_length. rewrite map_nth.
  set (f := fun i0 => quant1 u8 oz os (sig (dequant1 iz is (nth (hd 0%nat [i0]) codes 0)))).
  rewrite nth_indep with (d' := f 0%nat) (l := map _ (seq 0 (length codes))) by now rewrite map_length, seq_length.
  rewrite (map_nth f (seq 0 (length codes)) 0%nat i), seq_nth by exact Hi. reflexivity.
Qed.

Definition ex_sig (v : Q) : Q := ((1 + v / (1 + Qabs v)) / 2)%Q.
Example C64_example :
  nd_to_list (qsigmoid_infer ex_sig (1#10) 128 (1#256) 0 (nd_of_list 0 [0; 100; 128; 140; 255])) = [9; 34; 128; 198; 247] /\ forall c, In c [0; 100; 128; 140; 255] -> byte c.
Proof. split; [vm_compute; reflexivity|]. intros c H. unfold byte. repeat destruct H as [<-|H]; try lia. destruct H. Qed.
