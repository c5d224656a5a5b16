(** Properties C01-C09: core quantizer.  Only statements; proofs are in *Proofs.v. *)
From Verif Require Import Base BaseProofs DtypeModel QuantModel QuantProofs DtypeProofs DtypeArithModel DtypeArithProofs.
Open Scope Z_scope.
Open Scope list_scope.

(** ** Small specification vocabulary *)
(** A rational [y] clipped to [lo, hi] and rounded down/up. *)
Definition clamp (lo hi x : Z) : Z := if x <? lo then lo else if hi <? x then hi else x.
(** The real-valued code of x. *)
Definition real_code (x s : Q) (zp : Z) : Q := (x / s + inject_Z zp)%Q.
(** Dtypes that fit in int32 / such that [code - zp] fits in int32 for every code. *)
Definition within_int32 (d : gdtype) : Prop :=
  - 2 ^ 31 <= gmin d /\ gmin d <= gmax d /\ gmax d <= 2 ^ 31 - 1.
Definition diff_in_int32 (d : gdtype) (zp : Z) : Prop :=
  - 2 ^ 31 <= gmin d - zp /\ gmax d - zp <= 2 ^ 31 - 1.
Definition in_dtype (d : gdtype) (q : Z) : Prop := gmin d <= q <= gmax d.
Definition int8 : gdtype := {| gmin := -128; gmax := 127; grepr := chars_of "int8" |}.
Definition int32 : gdtype := {| gmin := -2^31; gmax := 2^31-1; grepr := chars_of "int32" |}.
Definition uint32 : gdtype := {| gmin := 0; gmax := 2^32-1; grepr := chars_of "uint32" |}.
Definition scalar {A} (x : A) : nd A := mknd [] (fun _ => x).

Lemma clamp_clip lo hi x : lo <= hi -> clamp lo hi x = clipZ lo hi x.
Proof. unfold clamp, clipZ. intros H. destruct (x <? lo) eqn:A, (hi <? x) eqn:B; lia. Qed.

Example int8_parsed : parse_dtype (chars_of "INT8") = Ok int8. Proof. vm_compute. reflexivity. Qed.
Example int32_parsed : parse_dtype (chars_of "int32") = Ok int32. Proof. vm_compute. reflexivity. Qed.
Example uint32_parsed : parse_dtype (chars_of "uint32") = Ok uint32. Proof. vm_compute. reflexivity. Qed.
Example int8_ok : within_int32 int8 /\ diff_in_int32 int8 (-3) /\ diff_in_int32 int8 1000. 
Proof. unfold within_int32, diff_in_int32; simpl; lia. Qed.
Example int32_ok : within_int32 int32 /\ diff_in_int32 int32 0. 
Proof. unfold within_int32, diff_in_int32; simpl; lia. Qed.

Lemma dequantize_get a zp s idx : nd_get (dequantize a zp s) idx = dequant1 zp s (nd_get a idx).
Proof. reflexivity. Qed.

(** ** C01 *)
Theorem C01_quantize_in_range : forall d data zp s policy idx,
  within_int32 d -> gmin d <= nd_get (quantize d data zp s policy) idx <= gmax d.
Proof. exact quantize_range. Qed.

(** Every dtype string the constructor accepts with at most 32 (signed) / 31 (unsigned) bits. *)
Theorem C01_quantize_in_range_parsed : forall str d ty n data zp s policy idx,
  parse_dtype str = Ok d -> lower str = ty ++ dec n -> In ty [chars_of "int"; chars_of "uint"] ->
  (Z.of_N n <= if chars_eqb ty (chars_of "int") then 32 else 31) ->
  gmin d <= nd_get (quantize d data zp s policy) idx <= gmax d.
Proof.
  intros str d ty n data zp s policy idx Hp Hl Ht Hn. apply quantize_range.
  destruct (parse_sound _ _ Hp) as (ty' & n' & Hty' & Hn' & Hl' & ->).
  assert (Hty : In ty names) by (simpl in *; intuition).
  destruct (N.eq_dec n 0) as [->|N0].
  { exfalso. rewrite Hl in Hl'.
    pose proof (parse_complete str ty' n' Hty' Hn') as P1.
    destruct (names_alpha _ Hty) as (A1 & _ & _). destruct (names_alpha _ Hty') as (A2 & _ & _).
    assert (X : dropwhile is_alpha (ty ++ dec 0) = dropwhile is_alpha (ty' ++ dec n')) by (now rewrite Hl').
    rewrite !dropwhile_app in X; try assumption.
    - apply dec_inj in X. lia.
    - intros c r E. pose proof (dec_digits n') as D. rewrite E in D. simpl in D.
      apply andb_true_iff in D as [D _]. now apply digit_not_alpha.
    - intros c r E. pose proof (dec_digits 0) as D. rewrite E in D. simpl in D.
      apply andb_true_iff in D as [D _]. now apply digit_not_alpha. }
  pose proof (parse_complete str ty n Hty ltac:(lia) Hl) as P. rewrite Hp in P. injection P as ->.
  unfold dtype_of. unfold fits_i32. 
  assert (0 < Z.of_N n) by lia.
  assert (Hm : forall k, 0 <= k <= 31 -> 1 <= 2 ^ k <= 2 ^ 31).
  { intros k Hk. split; [|apply Z.pow_le_mono_r; lia].
    change 1 with (2 ^ 0) at 1. apply Z.pow_le_mono_r; lia. }
  destruct (chars_eqb ty (chars_of "int")); simpl gmin; simpl gmax.
  - specialize (Hm (Z.of_N n - 1)). lia.
  - specialize (Hm (Z.of_N n)). lia.
Qed.

Theorem C01_shape : forall d data zp s p,
  nd_shape (quantize d data zp s None) = nd_shape data /\
  (nd_shape p = nd_shape data -> nd_shape (quantize d data zp s (Some p)) = nd_shape data).
Proof. intros; split; [reflexivity|apply quantize_shape_same]. Qed.

(** uint32: 2^31 is representable but its code leaves the range. *)
Theorem C01_uint32_refuted : exists x,
  real_code x 1 0 = real_code (inject_Z (2^31)) 1 0 /\
  ~ in_dtype uint32 (nd_get (quantize uint32 (scalar x) 0 1 None) []).
Proof. exists (inject_Z (2^31)). split; [reflexivity|]. vm_compute. intros [H _]; apply H; reflexivity. Qed.

Example C01_example :
  nd_to_list (quantize int8 (nd_of_list 0%Q [-1000; 3#2; 1000]%Q) 3 (1#2) None) = [-128; 6; 127].
Proof. vm_compute. reflexivity. Qed.

(** ** C02 *)
Theorem C02_half_step : forall d data zp s idx,
  within_int32 d -> diff_in_int32 d zp -> (0 < s)%Q ->
  let x := nd_get data idx in
  (inject_Z (gmin d) <= real_code x s zp <= inject_Z (gmax d))%Q ->
  (Qabs (x - nd_get (dequantize (quantize d data zp s None) zp s) idx) <= s * (1#2))%Q.
Proof. intros d data zp s idx A B C x H. exact (quant1_half d zp s x A B C H). Qed.

Theorem C02_no_code_closer : forall d data zp s idx k,
  within_int32 d -> diff_in_int32 d zp -> (0 < s)%Q -> in_dtype d k ->
  let x := nd_get data idx in
  (Qabs (x - nd_get (dequantize (quantize d data zp s None) zp s) idx)
   <= Qabs (x - inject_Z (k - zp) * s))%Q.
Proof.
  intros d data zp s idx k A B C D x. rewrite <- (dequant1_nowrap d zp s k A B D).
  exact (quant1_nearest d zp s x k A B C D).
Qed.

Theorem C02_saturation : forall d data zp s idx,
  within_int32 d ->
  let x := nd_get data idx in
  ((real_code x s zp <= inject_Z (gmin d))%Q -> nd_get (quantize d data zp s None) idx = gmin d) /\
  ((inject_Z (gmax d) <= real_code x s zp)%Q -> nd_get (quantize d data zp s None) idx = gmax d).
Proof.
  intros d data zp s idx A x.
  exact (conj (quant1_saturate_low d zp s x A) (quant1_saturate_high d zp s x A)).
Qed.

Example C02_example : let d := int8 in let x := (37#10)%Q in let s := (1#4)%Q in
  (inject_Z (gmin d) <= real_code x s 5 <= inject_Z (gmax d))%Q /\
  nd_get (quantize d (scalar x) 5 s None) [] = 20.
Proof. vm_compute. intuition congruence. Qed.

(** ** C03 *)
Theorem C03_roundtrip : forall d codes zp s idx,
  within_int32 d -> diff_in_int32 d zp -> ~ (s == 0)%Q -> in_dtype d (nd_get codes idx) ->
  nd_get (quantize d (dequantize codes zp s) zp s None) idx = nd_get codes idx.
Proof. intros d codes zp s idx A B C D. rewrite quantize_none. exact (quant1_dequant1 d zp s (nd_get codes idx) A B C D). Qed.

Theorem C03_idempotent : forall d data zp s idx,
  within_int32 d -> diff_in_int32 d zp -> ~ (s == 0)%Q ->
  let qd a := dequantize (quantize d a zp s None) zp s in
  nd_get (qd (qd data)) idx = nd_get (qd data) idx.
Proof.
  intros d data zp s idx A B C qd.
  unfold qd. rewrite !dequantize_get, !quantize_none, !dequantize_get, !quantize_none.
  rewrite quant1_dequant1; [reflexivity|exact A|exact B|exact C|].
  exact (q_round_range d (1#2) _ A).
Qed.

Theorem C03_int32_refuted : exists zp q, in_dtype int32 zp /\ in_dtype int32 q /\
  nd_get (quantize int32 (dequantize (scalar q) zp 1) zp 1 None) [] <> q.
Proof. exists 1, (-2^31). vm_compute. intuition congruence. Qed.

(** ** C04 *)
Theorem C04_monotone : forall d a b zp s idx,
  within_int32 d -> (0 < s)%Q -> (nd_get a idx <= nd_get b idx)%Q ->
  nd_get (quantize d a zp s None) idx <= nd_get (quantize d b zp s None) idx.
Proof. intros d a b zp s idx A B C. rewrite !quantize_none. exact (quant1_mono d zp s _ _ A B C). Qed.

Theorem C04_zero : forall d a zp s idx,
  within_int32 d -> in_dtype d zp -> (nd_get a idx == 0)%Q ->
  nd_get (quantize d a zp s None) idx = zp.
Proof.
  intros d a zp s idx A B H. rewrite quantize_none.
  rewrite <- (quant1_zero d zp s A B) at 2. unfold quant1, q_round.
  rewrite (Qfloor_comp (nd_get a idx / s + inject_Z zp + (1#2))%Q (0 / s + inject_Z zp + (1#2))%Q); [reflexivity|].
  now rewrite H.
Qed.

(** ** C05 *)
Definition binary_policy (p : nd Q) : Prop :=
  forall i, valid_idx (nd_shape p) i = true -> nd_get p i = 0%Q \/ nd_get p i = 1%Q.

Theorem C05_floor_or_ceil : forall d data zp s p idx,
  within_int32 d -> nd_shape p = nd_shape data -> binary_policy p ->
  valid_idx (nd_shape data) idx = true ->
  let f := Qfloor (real_code (nd_get data idx) s zp) in
  let q := nd_get (quantize d data zp s (Some p)) idx in
  (nd_get p idx = 0%Q -> q = clamp (gmin d) (gmax d) f) /\
  (nd_get p idx = 1%Q -> q = clamp (gmin d) (gmax d) (f + 1)).
Proof.
  intros d data zp s p idx Hd Hs Hb Hv f q. unfold q.
  rewrite quantize_policy_same by assumption.
  assert (Hf : f = Qfloor (nd_get data idx / s) + zp) by (unfold f, real_code; apply Qfloor_plus_Z).
  rewrite !clamp_clip by apply Hd.
  split; intros ->.
  - change 0%Q with (if false then 1%Q else 0%Q). rewrite (quant1p_binary d zp s _ false) by exact Hd. f_equal. lia.
  - change 1%Q with (if true then 1%Q else 0%Q) at 1. rewrite (quant1p_binary d zp s _ true) by exact Hd. f_equal. lia.
Qed.

Theorem C05_error : forall d data zp s p idx,
  within_int32 d -> diff_in_int32 d zp -> (0 < s)%Q ->
  nd_shape p = nd_shape data -> valid_idx (nd_shape data) idx = true ->
  let x := nd_get data idx in
  let f := Qfloor (real_code x s zp) in
  let e := (nd_get (dequantize (quantize d data zp s (Some p)) zp s) idx - x)%Q in
  (nd_get p idx = 0%Q -> in_dtype d f -> (- s < e <= 0)%Q) /\
  (nd_get p idx = 1%Q -> in_dtype d (f + 1) -> (0 < e <= s)%Q).
Proof.
  intros d data zp s p idx Hd Hz Hs Hsh Hv x f e. unfold e. rewrite dequantize_get.
  rewrite quantize_policy_same by assumption. fold x.
  assert (Hf : f = Qfloor (x / s) + zp) by (unfold f, real_code; apply Qfloor_plus_Z).
  split; intros ->; intros Hr.
  - apply (floor_ceil_error d zp s x false); auto. unfold in_dtype in Hr. lia.
  - apply (floor_ceil_error d zp s x true); auto. unfold in_dtype in Hr. lia.
Qed.

Theorem C05_base_policy_is_nearest : forall d data zp s idx,
  within_int32 d -> valid_idx (nd_shape data) idx = true ->
  nd_get (quantize d data zp s (Some (get_base_rounding data s))) idx =
  nd_get (quantize d data zp s None) idx.
Proof.
  intros d data zp s idx Hd Hv. rewrite quantize_policy_same by (reflexivity || assumption).
  rewrite quantize_none. now apply base_rounding_nearest.
Qed.

Theorem C05_base_policy_binary : forall data s,
  nd_shape (get_base_rounding data s) = nd_shape data /\ binary_policy (get_base_rounding data s).
Proof.
  intros data s. split; [reflexivity|]. intros i _. simpl. unfold base_rounding1.
  destruct (Qlt_le_dec _ _); auto.
Qed.

(** Broadcastability stated independently: some aligned pair of extents (from the right)
    differs and neither is 1. *)
Definition shapes_incompatible (a b : list nat) : Prop :=
  exists k x y, nth_error (rev a) k = Some x /\ nth_error (rev b) k = Some y /\
    x <> y /\ x <> 1%nat /\ y <> 1%nat.
Lemma bshape_rev_incompatible : forall a b k x y,
  nth_error a k = Some x -> nth_error b k = Some y -> x <> y -> x <> 1%nat -> y <> 1%nat ->
  bshape_rev a b = None.
Proof.
  induction a as [|p a IH]; intros b k x y A B N1 N2 N3.
  - destruct k; discriminate.
  - destruct b as [|q b]; [destruct k; discriminate|]. simpl.
    destruct k as [|k]; simpl in A, B.
    + injection A as ->. injection B as ->. destruct (bshape_rev a b); [|reflexivity].
      destruct (Nat.eqb_spec x y); [congruence|]. destruct (Nat.eqb_spec x 1); [congruence|].
      destruct (Nat.eqb_spec y 1); [congruence|reflexivity].
    + now rewrite (IH b k x y).
Qed.
Theorem C05_bad_shape_falls_back : forall d data zp s p,
  shapes_incompatible (nd_shape data) (nd_shape p) ->
  quantize d data zp s (Some p) = quantize d data zp s None.
Proof.
  intros d data zp s p (k & x & y & A & B & C). apply quantize_bad_policy.
  unfold bshape. rewrite (bshape_rev_incompatible _ _ _ _ _ A B); intuition.
Qed.
Example C05_example :
  let data := nd_of_list 0%Q [3#10; -3#10; 1#2]%Q in
  let up := nd_of_list 0%Q [1; 1; 0]%Q in
  nd_to_list (quantize int8 data 0 1 (Some up)) = [1; 0; 0] /\
  nd_to_list (get_base_rounding data 1) = [0; 1; 1]%Q /\
  shapes_incompatible [3]%nat [2]%nat.
Proof. split; [|split]; [vm_compute; reflexivity ..|]. exists 0%nat, 3%nat, 2%nat. simpl. intuition congruence. Qed.

(** ** C06 *)
(** The accepted language and its meaning, stated without the parser. *)
Definition spec_dtype (ty : chars) (bits : N) (d : gdtype) : Prop :=
  grepr d = ty ++ dec bits /\
  ((ty = chars_of "int" /\ gmin d = - 2 ^ (Z.of_N bits - 1) /\ gmax d = 2 ^ (Z.of_N bits - 1) - 1) \/
   ((ty = chars_of "uint" \/ ty = chars_of "float") /\ gmin d = 0 /\ gmax d = 2 ^ Z.of_N bits - 1)).
Lemma spec_dtype_of ty n : In ty names -> spec_dtype ty n (dtype_of ty n).
Proof.
  intros H. unfold spec_dtype, dtype_of. simpl in H.
  destruct H as [<-|[<-|[<-|[]]]]; cbn; intuition.
Qed.

Theorem C06_accepted : forall s ty bits,
  In ty [chars_of "int"; chars_of "uint"; chars_of "float"] -> (0 < bits)%N ->
  lower s = ty ++ dec bits ->
  exists d, parse_dtype s = Ok d /\ spec_dtype ty bits d.
Proof.
  intros s ty n H Hn Hl. exists (dtype_of ty n). split; [now apply parse_complete|].
  now apply spec_dtype_of.
Qed.
Theorem C06_only_accepted : forall s d, parse_dtype s = Ok d ->
  exists ty bits, In ty [chars_of "int"; chars_of "uint"; chars_of "float"] /\ (0 < bits)%N /\
    lower s = ty ++ dec bits /\ spec_dtype ty bits d.
Proof.
  intros s d H. destruct (parse_sound _ _ H) as (ty & n & A & B & C & ->).
  exists ty, n. repeat split; auto. all: now apply spec_dtype_of.
Qed.
Theorem C06_rejected : forall s e, parse_dtype s = Err e ->
  (e = EIndexError /\ (existsb is_digit s = false \/ existsb is_alpha s = false)) \/
  (e = ETypeError /\ existsb is_digit s = true /\ existsb is_alpha s = true).
Proof. exact parse_errors. Qed.
Theorem C06_str_roundtrip : forall s d, parse_dtype s = Ok d ->
  grepr d = lower s /\ parse_dtype (grepr d) = Ok d.
Proof. exact parse_repr_roundtrip. Qed.
Theorem C06_numpy_agrees_with_string : forall sg k d,
  numpy_dtype (NpInt sg k) = Ok d -> parse_dtype (grepr d) = Ok d.
Proof. exact numpy_agrees. Qed.
(** The decimal notation used above really is decimal notation. *)
Theorem C06_dec_adequate : forall n, int_of_digits (dec n) = Ok n.
Proof. exact int_of_dec. Qed.
Example C06_example :
  parse_dtype (chars_of "UInt4") = Ok {| gmin := 0; gmax := 15; grepr := chars_of "uint4" |} /\
  parse_dtype (chars_of "int08") = Err ETypeError /\
  parse_dtype (chars_of "int0") = Err ETypeError /\
  parse_dtype (chars_of "bool8") = Err ETypeError /\
  parse_dtype (chars_of "8int") = Err ETypeError /\
  parse_dtype (chars_of "int") = Err EIndexError.
Proof. vm_compute. intuition. Qed.

(** ** C07 *)
(** [d] holds integers of its own dtype: [2^bits] values, two's complement or unsigned. *)
Definition fits_dtype (signed : bool) (bits x : Z) : Prop :=
  if signed then - 2 ^ (bits - 1) <= x <= 2 ^ (bits - 1) - 1 else 0 <= x <= 2 ^ bits - 1.
Definition valid_dt (d : dt) : Prop := Forall (fits_dtype (dsg d) (8 * 2 ^ Z.of_nat (dk d))) (dvals d).
(** at most 32 bits *)
Definition upto32 (d : dt) : Prop := 8 * 2 ^ Z.of_nat (dk d) <= 32.
Lemma upto32_k d : upto32 d -> (dk d <= 2)%nat.
Proof.
  unfold upto32. intros H. destruct (le_lt_dec (dk d) 2) as [A|A]; [exact A|].
  assert (2 ^ 3 <= 2 ^ Z.of_nat (dk d)) by (apply Z.pow_le_mono_r; lia). lia.
Qed.
Lemma valid_wf d : valid_dt d -> (dk d <= 2)%nat -> wf d.
Proof.
  intros H K. split; [lia|]. eapply Forall_impl; [|exact H].
  unfold fits_dtype, in_rng, dbits, np_bits, np_min, np_max. intros x. destruct (dsg d); auto.
Qed.
Definition exact_result (op : Z -> Z -> Z) (a b r : dt) : Prop :=
  dvals r = map (fun p => op (fst p) (snd p)) (combine (dvals a) (dvals b)) /\
  dsg r = dsg a /\ valid_dt r.
Lemma exact_gen op a b :
  (op = Z.add \/ op = Z.mul \/ (op = Z.sub /\
     (dsg a = true \/ forall x y, In (x, y) (combine (dvals a) (dvals b)) -> y <= x))) ->
  dsg a = dsg b -> valid_dt a -> valid_dt b -> upto32 a -> upto32 b ->
  exact_result op a b (dt_op op a b).
Proof.
  intros Hop Hs Va Vb Ka Kb.
  apply upto32_k in Ka. apply upto32_k in Kb.
  destruct (dt_exact_gen op a b Hop Hs (valid_wf a Va Ka) (valid_wf b Vb Kb) Ka Kb) as (A & B & C).
  split; [exact A|]. split; [exact C|].
  eapply Forall_impl; [|exact B].
  unfold fits_dtype, in_rng, dbits, np_bits, np_min, np_max. intros x. destruct (dsg (dt_op op a b)); exact (fun H => H).
Qed.
Theorem C07_add_exact : forall a b,
  dsg a = dsg b -> valid_dt a -> valid_dt b -> upto32 a -> upto32 b ->
  exists r, dt_add a (ODt b) = Ok r /\ exact_result Z.add a b r.
Proof. intros a b; intros. exists (dt_op Z.add a b). split; [reflexivity|]. apply exact_gen; auto. Qed.
Theorem C07_mul_exact : forall a b,
  dsg a = dsg b -> valid_dt a -> valid_dt b -> upto32 a -> upto32 b ->
  exists r, dt_mul a (ODt b) = Ok r /\ exact_result Z.mul a b r.
Proof. intros a b; intros. exists (dt_op Z.mul a b). split; [reflexivity|]. apply exact_gen; auto. Qed.
Theorem C07_sub_exact : forall a b,
  dsg a = dsg b -> valid_dt a -> valid_dt b -> upto32 a -> upto32 b ->
  (dsg a = true \/ forall x y, In (x, y) (combine (dvals a) (dvals b)) -> y <= x) ->
  exists r, dt_sub a (ODt b) = Ok r /\ exact_result Z.sub a b r.
Proof. intros a b; intros. exists (dt_op Z.sub a b). split; [reflexivity|]. apply exact_gen; auto. Qed.
(** Adding a plain value uses the dtype of the left operand. *)
Theorem C07_add_plain : forall a vs,
  valid_dt a -> upto32 a -> Forall (fits_dtype (dsg a) (8 * 2 ^ Z.of_nat (dk a))) vs ->
  exists r, dt_add a (ORaw vs) = Ok r /\
    exact_result Z.add a {| dvals := vs; dsg := dsg a; dk := dk a |} r.
Proof.
  intros a vs Va Ka Hv. exists (dt_op Z.add a {| dvals := vs; dsg := dsg a; dk := dk a |}).
  split; [reflexivity|]. apply exact_gen; auto.
Qed.
Theorem C07_sub_mul_plain_raise : forall a vs,
  dt_sub a (ORaw vs) = Err EAttributeError /\ dt_mul a (ORaw vs) = Err EAttributeError.
Proof. intros; split; reflexivity. Qed.

Definition mk (sg : bool) (k : nat) (v : Z) : dt := {| dvals := [v]; dsg := sg; dk := k |}.
Example C07_example :
  dt_mul (mk true 0 (-128)) (ODt (mk true 0 (-128))) = Ok (mk true 1 16384) /\
  dt_add (mk false 2 (2^32-1)) (ODt (mk false 0 255)) = Ok (mk false 3 (2^32+254)) /\
  valid_dt (mk true 0 (-128)) /\ upto32 (mk true 0 (-128)).
Proof. split; [vm_compute; reflexivity|]. split; [vm_compute; reflexivity|].
  unfold valid_dt, upto32, mk; cbn. split; [repeat constructor|]; lia. Qed.

(** Mixed signedness: wrong value / reported dtype too small.  64-bit: wraps.  Unsigned: no borrow. *)
Theorem C07_mixed_sign_refuted :
  (exists a b, valid_dt a /\ valid_dt b /\ upto32 a /\ upto32 b /\
     exists r, dt_add a (ODt b) = Ok r /\
     dvals r <> map (fun p => fst p + snd p) (combine (dvals a) (dvals b))) /\
  (exists a b, valid_dt a /\ valid_dt b /\ upto32 a /\ upto32 b /\
     exists r, dt_add a (ODt b) = Ok r /\ ~ valid_dt r).
Proof.
  split.
  - exists (mk true 0 (-5)), (mk false 0 3). unfold valid_dt, upto32, mk.
    repeat split; try (repeat constructor; cbn; lia).
    eexists. split; [reflexivity|]. vm_compute. congruence.
  - exists (mk false 0 200), (mk true 0 (-5)). unfold valid_dt, upto32, mk.
    repeat split; try (repeat constructor; cbn; lia).
    eexists. split; [reflexivity|]. vm_compute. intros H. inversion_clear H as [|? ? [_ X] _].
    apply X. reflexivity.
Qed.
Theorem C07_int64_refuted : exists a b, dsg a = dsg b /\ valid_dt a /\ valid_dt b /\
  exists r, dt_add a (ODt b) = Ok r /\ dvals r <> map (fun p => fst p + snd p) (combine (dvals a) (dvals b)).
Proof.
  exists (mk true 3 (2^63-1)), (mk true 3 1). unfold valid_dt, mk.
  repeat split; try (repeat constructor; cbn; lia).
  eexists. split; [reflexivity|]. vm_compute. congruence.
Qed.
Theorem C07_unsigned_sub_refuted : exists a b, dsg a = dsg b /\ valid_dt a /\ valid_dt b /\ upto32 a /\ upto32 b /\
  exists r, dt_sub a (ODt b) = Ok r /\ dvals r <> map (fun p => fst p - snd p) (combine (dvals a) (dvals b)).
Proof.
  exists (mk false 0 3), (mk false 0 5). unfold valid_dt, upto32, mk.
  repeat split; try (repeat constructor; cbn; lia).
  eexists. split; [reflexivity|]. vm_compute. congruence.
Qed.

(** ** C08 *)
Theorem C08_int8 : forall x y, -128 <= x <= 127 -> -128 <= y <= 127 ->
  int8_multiplication x y = x * y /\ int8_addition x y = x + y.
Proof. intros x y Hx Hy. split; [apply (widen_mul 8)|apply (widen_add 8)]; lia. Qed.
Theorem C08_int16 : forall x y, -32768 <= x <= 32767 -> -32768 <= y <= 32767 ->
  int16_multiplication x y = x * y /\ int16_addition x y = x + y.
Proof. intros x y Hx Hy. split; [apply (widen_mul 16)|apply (widen_add 16)]; lia. Qed.
Theorem C08_int32 : forall x y, - 2^31 <= x <= 2^31-1 -> - 2^31 <= y <= 2^31-1 ->
  int32_multiplication x y = x * y /\ int32_addition x y = x + y.
Proof. intros x y Hx Hy. split; [apply (widen_mul 32)|apply (widen_add 32)]; lia. Qed.
Example C08_example : int8_multiplication (-128) (-128) = 16384. Proof. vm_compute. reflexivity. Qed.

(** ** C09 *)
Theorem C09_length : forall d f is iz os oz p,
  within_int32 d ->
  match p with None => True | Some p => nd_shape p = [Z.to_nat (gmax d - gmin d + 1)] end ->
  Z.of_nat (length (create_LUT d f is iz os oz p)) = gmax d - gmin d + 1.
Proof.
  intros d f is iz os oz p Hd Hp. rewrite create_LUT_length.
  - destruct Hd. lia.
  - destruct p as [p|]; [|exact I]. unfold lut_policy_ok. rewrite Hp. do 2 f_equal. lia.
Qed.
(** Entry k, for the code min+k: quantize(f(dequantize(code))) computed by the public entry points. *)
Theorem C09_entry : forall d f is iz os oz code,
  within_int32 d -> in_dtype d code ->
  nth_error (create_LUT d f is iz os oz None) (Z.to_nat (code - gmin d)) =
  Some (nd_get (quantize d (scalar (f (nd_get (dequantize (scalar code) iz is) []))) oz os None) []).
Proof.
  intros d f is iz os oz code Hd [H1 H2]. rewrite create_LUT_nth by lia.
  rewrite quantize_none. unfold scalar. cbn [nd_get]. rewrite dequantize_get. cbn [nd_get].
  replace (gmin d + Z.of_nat (Z.to_nat (code - gmin d))) with code by lia. reflexivity.
Qed.
Theorem C09_entry_policy : forall d f is iz os oz p code,
  within_int32 d -> in_dtype d code -> nd_shape p = [Z.to_nat (gmax d - gmin d + 1)] ->
  let k := Z.to_nat (code - gmin d) in
  nth_error (create_LUT d f is iz os oz (Some p)) k =
  Some (nd_get (quantize d (scalar (f (nd_get (dequantize (scalar code) iz is) []))) oz os
                  (Some (scalar (nd_get p [k])))) []).
Proof.
  intros d f is iz os oz p code Hd [H1 H2] Hp k. unfold k.
  rewrite create_LUT_nth_policy; [|rewrite Hp; do 2 f_equal; lia|lia].
  rewrite quantize_policy_same; [|reflexivity|reflexivity].
  unfold scalar. cbn [nd_get]. rewrite dequantize_get. cbn [nd_get].
  replace (gmin d + Z.of_nat (Z.to_nat (code - gmin d))) with code by lia. reflexivity.
Qed.
Theorem C09_range : forall d f is iz os oz p y,
  within_int32 d -> In y (create_LUT d f is iz os oz p) -> in_dtype d y.
Proof.
  intros d f is iz os oz p y Hd H. unfold create_LUT, nd_to_list in H.
  apply in_map_iff in H as (k & <- & _). now apply quantize_range.
Qed.
Theorem C09_monotone : forall d f is iz os oz j k a b,
  within_int32 d -> diff_in_int32 d iz -> (0 < is)%Q -> (0 < os)%Q ->
  (forall x y, (x <= y)%Q -> (f x <= f y)%Q) ->
  (j <= k)%nat ->
  nth_error (create_LUT d f is iz os oz None) j = Some a ->
  nth_error (create_LUT d f is iz os oz None) k = Some b -> a <= b.
Proof.
  intros d f is iz os oz j k a b Hd Hz Hi Ho Hf Hjk Ha Hb.
  assert (Lk : (k < Z.to_nat (gmax d + 1 - gmin d))%nat).
  { rewrite <- (create_LUT_length d f is iz os oz None I). apply nth_error_Some. congruence. }
  rewrite create_LUT_nth in Ha by lia. rewrite create_LUT_nth in Hb by lia.
  injection Ha as <-. injection Hb as <-.
  apply quant1_mono; [exact Hd|exact Ho|]. apply Hf.
  rewrite !(dequant1_nowrap d) by (try exact Hd; try exact Hz; unfold in_dt; lia).
  apply Qmult_le_compat_r; [|lra]. apply (proj1 (Zle_inj _ _)). lia.
Qed.
Example C09_example :
  let d := {| gmin := -2; gmax := 1; grepr := chars_of "int2" |} in
  within_int32 d /\ create_LUT d (fun x => x * x)%Q (1#2) 0 (1#4) (-1) None = [1; 0; -1; 0].
Proof. cbv zeta. split; [unfold within_int32; cbn [gmin gmax]; lia|vm_compute; reflexivity]. Qed.
