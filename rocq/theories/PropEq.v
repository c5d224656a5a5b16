(** C34: random perturbations of quantization parameters. *)
From Verif Require Import Base BaseProofs DtypeModel QuantModel PropCore NodeModel EqModel.
From Coq Require Import Lqa Qpower.
Open Scope Z_scope.
Open Scope list_scope.

(** random() *)
Definition unit_draw (r : Q) : Prop := (0 <= r /\ r < 1)%Q.
Definition fair_draw (d : draw) : Prop := unit_draw (r_zp d) /\ unit_draw (r_mag d) /\ unit_draw (r_sign d).

Lemma Qltb_lt x y : Qltb x y = true <-> (x < y)%Q.
Proof. unfold Qltb. rewrite negb_true_iff. split; intros H; [apply Qnot_le_lt; intros C; apply Qle_bool_iff in C; congruence|].
  destruct (Qle_bool y x) eqn:E; [|reflexivity]. apply Qle_bool_iff in E. exfalso. lra. Qed.
Lemma Qltb_ge x y : Qltb x y = false <-> (y <= x)%Q.
Proof. unfold Qltb. rewrite negb_false_iff. apply Qle_bool_iff. Qed.

(** ** Zero points *)
(** dtypes have at least two codes *)
Theorem C34_zero_point : forall q z r, gmin q < gmax q -> in_dtype q z ->
  in_dtype q (eq_zp q z r) /\ Z.abs (eq_zp q z r - z) = 1.
Proof.
  intros q z r H [A B]. unfold eq_zp, in_dtype.
  destruct (Z.eqb_spec z (gmin q)); [split; lia|]. destruct (Z.eqb_spec z (gmax q)); [split; lia|].
  destruct (Qltb (1#2) r); split; lia.
Qed.
Theorem C34_zero_point_reaches_both : forall q z, gmin q < z < gmax q -> eq_zp q z (3#4) = z + 1 /\ eq_zp q z (1#4) = z - 1.
Proof.
  intros q z H. unfold eq_zp. destruct (Z.eqb_spec z (gmin q)); [lia|]. destruct (Z.eqb_spec z (gmax q)); [lia|]. split; reflexivity.
Qed.

(** ** Scales *)
Lemma pow10_pos k : (0 < Qpower 10 k)%Q.
Proof. apply Qpower_0_lt. lra. Qed.
Lemma pow10_S k : (Qpower 10 (k + 1) == 10 * Qpower 10 k)%Q.
Proof. rewrite Qpower_plus by lra. change (10 ^ 1)%Q with 10%Q. ring. Qed.
Lemma pow10_P k : (10 * Qpower 10 (k - 1) == Qpower 10 k)%Q.
Proof. rewrite <- pow10_S. replace (k - 1 + 1) with k by lia. reflexivity. Qed.
Lemma pow10_inv k : (Qpower 10 (- k + 1) * Qpower 10 (k - 1) == 1)%Q.
Proof. rewrite <- Qpower_plus by lra. replace (- k + 1 + (k - 1)) with 0 by lia. reflexivity. Qed.

Lemma div_inv r x y : (0 < x)%Q -> (x * y == 1)%Q -> (r / x == r * y)%Q.
Proof.
  intros P I. assert (N : ~ (x == 0)%Q) by lra. apply (Qmult_inj_r _ _ x N). setoid_replace (r * y * x)%Q with (r * (x * y))%Q by ring.
  rewrite I. field. exact N.
Qed.
Lemma log10_up_spec s : forall f k, (Qpower 10 k <= s)%Q -> (s < Qpower 10 (k + Z.of_nat f + 1))%Q ->
  (Qpower 10 (log10_up f s k) <= s /\ s < Qpower 10 (log10_up f s k + 1))%Q.
Proof.
  induction f as [|f IH]; intros k A B; cbn [log10_up].
  - split; [exact A|]. now replace (k + 1) with (k + Z.of_nat 0 + 1) by lia.
  - destruct (Qle_bool _ s) eqn:E.
    + apply IH; [now apply Qle_bool_iff|]. now replace (k + 1 + Z.of_nat f + 1) with (k + Z.of_nat (S f) + 1) by lia.
    + split; [exact A|]. apply Qnot_le_lt. intros C. apply Qle_bool_iff in C. congruence.
Qed.
Lemma log10_down_spec s : forall f k, (s < Qpower 10 (k + 1))%Q -> (Qpower 10 (k - Z.of_nat f) <= s)%Q ->
  (Qpower 10 (log10_down f s k) <= s /\ s < Qpower 10 (log10_down f s k + 1))%Q.
Proof.
  induction f as [|f IH]; intros k A B; cbn [log10_down].
  - split; [|exact A]. now replace k with (k - Z.of_nat 0) by lia.
  - destruct (Qle_bool _ s) eqn:E.
    + split; [now apply Qle_bool_iff|exact A].
    + apply IH; [|now replace (k - 1 - Z.of_nat f) with (k - Z.of_nat (S f)) by lia].
      replace (k - 1 + 1) with k by lia. apply Qnot_le_lt. intros C. apply Qle_bool_iff in C. congruence.
Qed.
Lemma pow10_ge_pow2 n : 0 <= n -> (inject_Z (2 ^ n) <= Qpower 10 n)%Q.
Proof.
  intros H. rewrite <- (Z2Nat.id n H). induction (Z.to_nat n) as [|m IH]; [vm_compute; discriminate|].
  rewrite Nat2Z.inj_succ. unfold Z.succ. rewrite pow10_S. rewrite Z.pow_add_r by lia. rewrite inject_Z_mult.
  assert (0 < Qpower 10 (Z.of_nat m))%Q by apply pow10_pos. change (inject_Z (2^1)) with 2%Q. lra.
Qed.
(** the search finds the floor of the decimal logarithm *)
Lemma floor_log10_spec s : (0 < s)%Q -> (Qpower 10 (floor_log10 s) <= s /\ s < Qpower 10 (floor_log10 s + 1))%Q.
Proof.
  intros P. unfold floor_log10. destruct (Qle_bool 1 s) eqn:E.
  - apply Qle_bool_iff in E. apply log10_up_spec; [cbn; lra|].
    assert (F : 1 <= Qfloor s) by (change 1 with (Qfloor 1); now apply Qfloor_resp_le).
    assert (L := Z.log2_nonneg (Qfloor s)). rewrite Z2Nat.id by lia.
    assert (X : Qfloor s + 1 <= 2 ^ (Z.log2 (Qfloor s) + 1)). { destruct (Z.log2_spec (Qfloor s)); [lia|]. change (Z.succ ?a) with (a + 1) in *. lia. }
    assert (Y := pow10_ge_pow2 (Z.log2 (Qfloor s) + 1) ltac:(lia)).
    assert (Z0 := Qlt_floor s). apply Zle_inj in X.
    assert (W := pow10_pos (Z.log2 (Qfloor s) + 1)). rewrite pow10_S. replace (0 + (Z.log2 (Qfloor s) + 1)) with (Z.log2 (Qfloor s) + 1) by lia. lra.
  - assert (s < 1)%Q. { apply Qnot_le_lt. intros C. apply Qle_bool_iff in C. congruence. }
    apply log10_down_spec; [change (Qpower 10 (0+1)) with 10%Q; lra|].
    assert (L := Z.log2_nonneg (Zpos (Qden s))). rewrite Z2Nat.id by lia.
    set (n := Z.log2 (Zpos (Qden s)) + 2).
    assert (X : Zpos (Qden s) <= 2 ^ n). { destruct (Z.log2_spec (Zpos (Qden s))); [lia|]. unfold n. replace (Z.log2 (Zpos (Qden s)) + 2) with (Z.succ (Z.log2 (Zpos (Qden s))) + 1) by lia. rewrite Z.pow_add_r by lia. lia. }
    assert (Y := pow10_ge_pow2 n ltac:(unfold n; lia)). apply Zle_inj in X.
    assert (N : (s * inject_Z (Zpos (Qden s)) == inject_Z (Qnum s))%Q). { destruct s as [a b]. unfold Qeq, inject_Z; cbn. lia. }
    assert (M : 1 <= Qnum s). { destruct s as [a b]. unfold Qlt in P; cbn in *. lia. }
    apply Zle_inj in M. change (inject_Z 1) with 1%Q in M.
    assert (I : (Qpower 10 (0 - n) * Qpower 10 n == 1)%Q). { rewrite <- Qpower_plus by lra. replace (0 - n + n) with 0 by lia. reflexivity. }
    assert (W := pow10_pos n). apply (Qmult_le_r _ _ _ W). rewrite I.
    assert (s * inject_Z (Z.pos (Qden s)) <= s * Qpower 10 n)%Q. { rewrite !(Qmult_comm s). apply Qmult_le_compat_r; lra. }
    lra.
Qed.

(** A positive scale changes by less than 10% and so stays positive. *)
Theorem C34_scale : forall s rm rs, (0 < s)%Q -> unit_draw rm ->
  exists s', eq_scale s rm rs = Ok s' /\ ((9#10) * s < s' /\ s' < (11#10) * s)%Q.
Proof.
  intros s rm rs P [R0 R1]. unfold eq_scale. apply Qltb_lt in P as P'. rewrite P'. eexists. split; [reflexivity|].
  destruct (floor_log10_spec s P) as [A B]. set (k := floor_log10 s) in *. unfold eq_scale_at.
  assert (Q0 := pow10_pos (k - 1)). assert (Q1 := pow10_pos (- k + 1)). assert (I := pow10_inv k). assert (TEN := pow10_P k).
  assert (E : (rm / Qpower 10 (- k + 1) == rm * Qpower 10 (k - 1))%Q).
  { apply div_inv; assumption. }
  rewrite E. assert (U : (rm * Qpower 10 (k - 1) < Qpower 10 (k - 1))%Q).
  { setoid_replace (Qpower 10 (k - 1)) with (1 * Qpower 10 (k - 1))%Q at 2 by ring. apply Qmult_lt_compat_r; lra. }
  assert (V : (0 <= rm * Qpower 10 (k - 1))%Q) by (apply Qmult_le_0_compat; lra).
  destruct (Qltb (1#2) rs); lra.
Qed.
(** Even if the float logarithm were rounded up to the next integer the scale would stay positive. *)
Theorem C34_scale_misrounded_log : forall s k rm rs, (0 < s)%Q -> unit_draw rm -> (k <= floor_log10 s + 1) ->
  (0 < eq_scale_at k s rm rs /\ eq_scale_at k s rm rs < 2 * s)%Q.
Proof.
  intros s k rm rs P [R0 R1] K. destruct (floor_log10_spec s P) as [A B]. set (g := floor_log10 s) in *. unfold eq_scale_at.
  assert (Q0 := pow10_pos (k - 1)). assert (Q1 := pow10_pos (- k + 1)). assert (I := pow10_inv k).
  assert (E : (rm / Qpower 10 (- k + 1) == rm * Qpower 10 (k - 1))%Q).
  { apply div_inv; assumption. }
  assert (LE : (Qpower 10 (k - 1) <= Qpower 10 g)%Q).
  { assert (0 <= g - (k - 1)) by lia. replace g with (k - 1 + (g - (k - 1))) by lia. rewrite Qpower_plus by lra.
    assert (X := pow10_ge_pow2 (g - (k - 1)) H). assert (1 <= 2 ^ (g - (k-1))) by (change 1 with (2^0); apply Z.pow_le_mono_r; lia).
    apply Zle_inj in H0. change (inject_Z 1) with 1%Q in H0.
    assert (1 <= Qpower 10 (g - (k-1)))%Q by lra.
    setoid_replace (Qpower 10 (k - 1)) with (1 * Qpower 10 (k - 1))%Q at 1 by ring. rewrite (Qmult_comm (Qpower 10 (k - 1))). apply Qmult_le_compat_r; lra. }
  rewrite E. assert (U : (rm * Qpower 10 (k - 1) < Qpower 10 (k - 1))%Q).
  { setoid_replace (Qpower 10 (k - 1)) with (1 * Qpower 10 (k - 1))%Q at 2 by ring. apply Qmult_lt_compat_r; lra. }
  assert (V : (0 <= rm * Qpower 10 (k - 1))%Q) by (apply Qmult_le_0_compat; lra).
  destruct (Qltb (1#2) rs); lra.
Qed.
(** The perturbation really changes the scale unless the draw is 0. *)
Theorem C34_scale_moves : forall s rm rs s', (0 < s)%Q -> (0 < rm)%Q -> eq_scale s rm rs = Ok s' -> ~ (s' == s)%Q.
Proof.
  intros s rm rs s' P R E. unfold eq_scale in E. destruct (Qltb 0 s); [|discriminate].
  assert (s' = eq_scale_at (floor_log10 s) s rm rs) by congruence. subst s'. unfold eq_scale_at.
  assert (Q1 := pow10_pos (- floor_log10 s + 1)).
  assert (0 < rm / Qpower 10 (- floor_log10 s + 1))%Q by (apply Qlt_shift_div_l; lra).
  destruct (Qltb (1#2) rs); lra.
Qed.
Example C34_example : eq_scale (1#16) (1#2) (3#4) = Ok (eq_scale_at (-2) (1#16) (1#2) (3#4)) /\
  (eq_scale_at (-2) (1#16) (1#2) (3#4) == 62#1000)%Q /\ eq_zp int8 127 (3#4) = 126 /\ eq_zp int8 (-128) (1#4) = -127 /\ eq_zp int8 5 (1#4) = 4.
Proof. repeat split. Qed.

(** ** Any number of moves *)
(** one parameter pair perturbed n times *)
Fixpoint perturb (q : gdtype) (s : Q) (z : Z) (ds : list draw) : res (Q * Z) :=
  match ds with
  | [] => Ok (s, z)
  | d :: r => do s1 <- eq_scale s (r_mag d) (r_sign d); perturb q s1 (eq_zp q z (r_zp d)) r
  end.
Theorem C34_any_number_of_moves : forall q ds s z, gmin q < gmax q -> in_dtype q z -> (0 < s)%Q -> Forall fair_draw ds ->
  exists s' z', perturb q s z ds = Ok (s', z') /\ in_dtype q z' /\
    ((9#10) ^ Z.of_nat (length ds) * s <= s' /\ s' <= (11#10) ^ Z.of_nat (length ds) * s /\ 0 < s')%Q.
Proof.
  intros q ds. induction ds as [|d ds IH]; intros s z Q0 Z0 P F.
  - exists s, z. split; [reflexivity|]. split; [exact Z0|]. cbn. lra.
  - inversion F as [|? ? D F']; subst. destruct D as (D1 & D2 & D3). cbn [perturb].
    destruct (C34_scale s (r_mag d) (r_sign d) P D2) as (s1 & E & A & B). rewrite E. cbn [rbind].
    assert (P1 : (0 < s1)%Q) by lra.
    destruct (IH s1 _ Q0 (proj1 (C34_zero_point q z (r_zp d) Q0 Z0)) P1 F') as (s' & z' & E' & Z' & A' & B' & P').
    exists s', z'. split; [exact E'|]. split; [exact Z'|]. cbn [length]. rewrite Nat2Z.inj_succ. unfold Z.succ.
    rewrite !Qpower_plus by lra. change ((9#10)^1)%Q with (9#10)%Q. change ((11#10)^1)%Q with (11#10)%Q.
    assert (U : (0 < (9#10) ^ Z.of_nat (length ds))%Q) by (apply Qpower_0_lt; lra).
    assert (V : (0 < (11#10) ^ Z.of_nat (length ds))%Q) by (apply Qpower_0_lt; lra).
    set (u := ((9#10) ^ Z.of_nat (length ds))%Q) in *. set (v := ((11#10) ^ Z.of_nat (length ds))%Q) in *.
    assert (u * ((9#10) * s) <= u * s1)%Q by (rewrite !(Qmult_comm u); apply Qmult_le_compat_r; lra).
    assert (v * s1 <= v * ((11#10) * s))%Q by (rewrite !(Qmult_comm v); apply Qmult_le_compat_r; lra).
    split; [|split]; lra.
Qed.
(** A zero point that starts outside the dtype (the symmetric quantizer yields -255 for uint8) is not pulled
    back in: it can drift further away. *)
Theorem C34_outside_drifts_refuted : exists q z, gmin q < gmax q /\ ~ in_dtype q z /\ eq_zp q z (1#4) = z - 1 /\ z = -255 /\ gmin q = 0 /\ gmax q = 255.
Proof. exists {| gmin := 0; gmax := 255; grepr := [] |}, (-255). cbn. unfold in_dtype; cbn. repeat split; lia. Qed.
