(** C86: activation tables of Python callables. *)
From Verif Require Import Base BaseProofs DtypeModel QuantModel QuantProofs FcLayer PropCore VecModel.
From Coq Require Import Qminmax Lqa.
Open Scope Z_scope.
Open Scope list_scope.

(** ** Specification *)
(** the float a code stands for, and the code of a float, through the public entry points *)
Definition float_of (iz : Z) (is : Q) (code : Z) : Q := nd_get (dequantize (scalar code) iz is) [].
Definition code_for (d : gdtype) (oz : Z) (os : Q) (x : Q) : Z := nd_get (quantize d (scalar x) oz os None) [].
(** the callable returns a number of value [g x] on the float of every code *)
Definition returns (d : gdtype) (iz : Z) (is : Q) (f : Q -> res pynum) (g : Q -> Q) : Prop :=
  forall code, in_dtype d code -> exists y, f (float_of iz is code) = Ok y /\ pyval y = g (float_of iz is code).
(** the float of the lowest code: the one np.vectorize looks at *)
Definition first_float (d : gdtype) (iz : Z) (is : Q) : Q := float_of iz is (gmin d).

(** ** Lemmas *)
Lemma float_of_deq iz is code : float_of iz is code = dequant1 iz is code.
Proof. reflexivity. Qed.
Lemma code_range_in d c : In c (code_range d) -> in_dtype d c.
Proof. unfold code_range. intros H. apply in_map_iff in H as (i & <- & H). apply in_seq in H. unfold in_dtype. lia. Qed.
Lemma code_range_cons d : gmin d <= gmax d -> exists r, code_range d = gmin d :: r.
Proof.
  intros H. unfold code_range. destruct (Z.to_nat (gmax d + 1 - gmin d)) as [|n] eqn:E; [lia|].
  cbn [seq map]. eexists. f_equal. lia.
Qed.
Lemma mapM_all {A B} (f : A -> res B) (P : A -> B -> Prop) l :
  (forall x, In x l -> exists y, f x = Ok y /\ P x y) -> exists ys, mapM f l = Ok ys /\ Forall2 P l ys.
Proof.
  induction l as [|a l IH]; intros H; [exists []; split; [reflexivity|constructor]|].
  destruct (H a (or_introl eq_refl)) as (y & E & Py).
  destruct IH as (ys & E2 & F); [intros x Hx; apply H; now right|].
  exists (y :: ys). cbn [mapM rbind]. rewrite E. cbn [rbind]. rewrite E2. split; [reflexivity|now constructor].
Qed.
Lemma vectorize_ok f g c x0 r :
  (forall x, In x (x0 :: r) -> exists y, f x = Ok y /\ pyval y = g x) ->
  (forall y0, f x0 = Ok y0 -> forall x y, In x (x0 :: r) -> f x = Ok y -> np_cast y0 y = Ok (c (g x))) ->
  vectorize f (x0 :: r) = Ok (map (fun x => c (g x)) (x0 :: r)).
Proof.
  intros H K. unfold vectorize. destruct (H x0 (or_introl eq_refl)) as (y0 & E0 & _). rewrite E0. cbn [rbind].
  specialize (K y0 E0).
  assert (G : forall l, incl l (x0 :: r) -> exists ys, mapM f l = Ok ys /\ mapM (np_cast y0) ys = Ok (map (fun x => c (g x)) l)).
  { induction l as [|a l IH]; intros HI; [exists []; now split|].
    destruct (H a (HI a (or_introl eq_refl))) as (y & E & V).
    destruct IH as (ys & E1 & E2); [intros z Hz; apply HI; now right|].
    exists (y :: ys). cbn [mapM]. rewrite E. cbn [rbind]. rewrite E1. cbn [rbind]. split; [reflexivity|].
    rewrite (K a y (HI a (or_introl eq_refl)) E). cbn [rbind]. rewrite E2. reflexivity. }
  destruct (G (x0 :: r)) as (ys & E1 & E2); [apply incl_refl|]. rewrite E1. cbn [rbind]. exact E2.
Qed.
Lemma table_of d f g c is iz os oz p : gmin d <= gmax d -> returns d iz is f g ->
  (forall y0, f (first_float d iz is) = Ok y0 -> forall code y, in_dtype d code -> f (float_of iz is code) = Ok y ->
     np_cast y0 y = Ok (c (g (float_of iz is code)))) ->
  create_LUT_py d f is iz os oz p = Ok (create_LUT d (fun x => c (g x)) is iz os oz p).
Proof.
  intros L R K. unfold create_LUT_py, float_activation_py, create_LUT, float_activation.
  destruct (code_range_cons d L) as (r & E).
  assert (V : vectorize f (map (dequant1 iz is) (code_range d)) = Ok (map (fun x => c (g x)) (map (dequant1 iz is) (code_range d)))).
  { rewrite E. change (map (dequant1 iz is) (gmin d :: r)) with (dequant1 iz is (gmin d) :: map (dequant1 iz is) r). apply vectorize_ok.
    - intros x Hx. assert (Hx' : In x (map (dequant1 iz is) (code_range d))) by (rewrite E; exact Hx).
      apply in_map_iff in Hx' as (code & <- & Hc). apply code_range_in in Hc. exact (R code Hc).
    - intros y0 E0 x y Hx Ey. assert (Hx' : In x (map (dequant1 iz is) (code_range d))) by (rewrite E; exact Hx).
      apply in_map_iff in Hx' as (code & <- & Hc). apply code_range_in in Hc. exact (K y0 E0 code y Hc Ey). }
  rewrite V. reflexivity.
Qed.

(** ** C86 *)
(** A float on the lowest code: the table of C09, whatever the callable returns elsewhere. *)
Theorem C86_float_first : forall d f g is iz os oz p q,
  gmin d <= gmax d -> returns d iz is f g -> f (first_float d iz is) = Ok (PyFloat q) ->
  create_LUT_py d f is iz os oz p = Ok (create_LUT d g is iz os oz p).
Proof.
  intros d f g is iz os oz p q L R F. rewrite (table_of d f g (fun x => x) is iz os oz p L R); [reflexivity|].
  intros y0 E0 code y Hc Ey. rewrite F in E0. assert (y0 = PyFloat q) by congruence. subst y0. cbn [np_cast].
  destruct (R code Hc) as (y' & E' & V). rewrite E' in Ey. assert (y = y') by congruence. subst y'. now rewrite V.
Qed.
(** Entry by entry. *)
Theorem C86_float_first_entry : forall d f g is iz os oz q t code,
  within_int32 d -> returns d iz is f g -> f (first_float d iz is) = Ok (PyFloat q) ->
  create_LUT_py d f is iz os oz None = Ok t -> in_dtype d code ->
  nth_error t (Z.to_nat (code - gmin d)) = Some (code_for d oz os (g (float_of iz is code))).
Proof.
  intros d f g is iz os oz q t code Hd R F E Hc.
  rewrite (C86_float_first d f g is iz os oz None q) in E by (try assumption; destruct Hd; lia).
  assert (t = create_LUT d g is iz os oz None) by congruence. subst t. now apply C09_entry.
Qed.
(** An int on the lowest code: every value of the callable is truncated toward zero before it is quantized. *)
Theorem C86_int_first : forall d f g is iz os oz p z,
  gmin d <= gmax d -> returns d iz is f g -> f (first_float d iz is) = Ok (PyInt z) ->
  (forall code, in_dtype d code -> - 2 ^ 63 <= Qtrunc (g (float_of iz is code)) <= 2 ^ 63 - 1) ->
  create_LUT_py d f is iz os oz p = Ok (create_LUT d (fun x => inject_Z (Qtrunc (g x))) is iz os oz p).
Proof.
  intros d f g is iz os oz p z L R F B. apply (table_of d f g (fun x => inject_Z (Qtrunc x)) is iz os oz p L R).
  intros y0 E0 code y Hc Ey. rewrite F in E0. assert (y0 = PyInt z) by congruence. subst y0. cbn [np_cast].
  destruct (R code Hc) as (y' & E' & V). rewrite E' in Ey. assert (y = y') by congruence. subst y'.
  assert (T : match y with PyInt z0 => z0 | _ => Qtrunc (pyval y) end = Qtrunc (g (float_of iz is code))).
  { rewrite <- V. destruct y as [b|z'|q']; try reflexivity. cbn [pyval]. unfold Qtrunc, Qceiling.
    destruct (Qle_bool 0 (inject_Z z')); [now rewrite Qfloor_Z|]. rewrite <- inject_Z_opp, Qfloor_Z. lia. }
  rewrite T. specialize (B code Hc).
  destruct (- 2 ^ 63 <=? Qtrunc (g (float_of iz is code))) eqn:A1; [|apply Z.leb_gt in A1; lia].
  destruct (Qtrunc (g (float_of iz is code)) <=? 2 ^ 63 - 1) eqn:A2; [reflexivity|apply Z.leb_gt in A2; lia].
Qed.
Theorem C86_int_first_entry : forall d f g is iz os oz z t code,
  within_int32 d -> returns d iz is f g -> f (first_float d iz is) = Ok (PyInt z) ->
  (forall code, in_dtype d code -> - 2 ^ 63 <= Qtrunc (g (float_of iz is code)) <= 2 ^ 63 - 1) ->
  create_LUT_py d f is iz os oz None = Ok t -> in_dtype d code ->
  nth_error t (Z.to_nat (code - gmin d)) = Some (code_for d oz os (inject_Z (Qtrunc (g (float_of iz is code))))).
Proof.
  intros d f g is iz os oz z t code Hd R F B E Hc.
  rewrite (C86_int_first d f g is iz os oz None z) in E by (try assumption; destruct Hd; lia).
  assert (t = create_LUT d (fun x => inject_Z (Qtrunc (g x))) is iz os oz None) by congruence. subst t. now apply C09_entry.
Qed.
(** A bool on the lowest code: only zero or not zero survives. *)
Theorem C86_bool_first : forall d f g is iz os oz p b,
  gmin d <= gmax d -> returns d iz is f g -> f (first_float d iz is) = Ok (PyBool b) ->
  create_LUT_py d f is iz os oz p = Ok (create_LUT d (fun x => if Qeq_bool (g x) 0 then 0%Q else 1%Q) is iz os oz p).
Proof.
  intros d f g is iz os oz p b L R F. apply (table_of d f g (fun x => if Qeq_bool x 0 then 0%Q else 1%Q) is iz os oz p L R).
  intros y0 E0 code y Hc Ey. rewrite F in E0. assert (y0 = PyBool b) by congruence. subst y0. cbn [np_cast].
  destruct (R code Hc) as (y' & E' & V). rewrite E' in Ey. assert (y = y') by congruence. subst y'. now rewrite V.
Qed.
(** Exceptions of the callable surface; a table means that it returned on every code. *)
Theorem C86_raises : forall d f is iz os oz p code e,
  in_dtype d code -> f (float_of iz is code) = Err e -> exists e', create_LUT_py d f is iz os oz p = Err e'.
Proof.
  intros d f is iz os oz p code e Hc E. unfold create_LUT_py, float_activation_py, vectorize.
  assert (I : In (float_of iz is code) (map (dequant1 iz is) (code_range d))).
  { rewrite float_of_deq. apply in_map. unfold code_range. apply in_map_iff. exists (Z.to_nat (code - gmin d)). unfold in_dtype in Hc.
    split; [lia|]. apply in_seq. lia. }
  destruct (map (dequant1 iz is) (code_range d)) as [|x0 r] eqn:Em; [destruct I|].
  destruct (f x0) as [y0|e0] eqn:E0; cbn [rbind]; [|eauto].
  assert (M : exists e', mapM f (x0 :: r) = Err e').
  { clear Em E0 y0. induction (x0 :: r) as [|a l IH]; [destruct I|]. cbn [mapM]. destruct I as [->|I].
    - rewrite E. eexists. reflexivity.
    - destruct (f a); cbn [rbind]; [|eauto]. destruct (IH I) as (e' & ->). eexists. reflexivity. }
  destruct M as (e' & ->). cbn [rbind]. eauto.
Qed.
(** the lowest code is tried first *)
Theorem C86_raises_first : forall d f is iz os oz p e,
  gmin d <= gmax d -> f (first_float d iz is) = Err e -> create_LUT_py d f is iz os oz p = Err e.
Proof.
  intros d f is iz os oz p e L E. unfold create_LUT_py, float_activation_py. destruct (code_range_cons d L) as (r & ->).
  cbn [map vectorize]. change (dequant1 iz is (gmin d)) with (first_float d iz is). rewrite E. reflexivity.
Qed.

(** a dtype with no code at all: np.vectorize has no first element to look at *)
Theorem C86_no_codes : forall d f is iz os oz p, gmax d < gmin d -> create_LUT_py d f is iz os oz p = Err EValueError.
Proof.
  intros d f is iz os oz p L. unfold create_LUT_py, float_activation_py, code_range.
  assert (E : Z.to_nat (gmax d + 1 - gmin d) = 0%nat) by lia. rewrite E. reflexivity.
Qed.
Example C86_no_codes_example : create_LUT_py {| gmin := 1; gmax := 0; grepr := chars_of "none" |} relu_float 1 0 1 0 None = Err EValueError.
Proof. apply C86_no_codes. cbn. lia. Qed.

(** *** ReLU written as max(0, x) *)
Definition relu (x : Q) : Q := if Qle_bool x 0 then 0%Q else x.
Lemma relu_0x_returns d iz is : returns d iz is relu_0x relu.
Proof. intros code _. unfold relu_0x, relu. destruct (Qle_bool _ 0); eexists; split; reflexivity. Qed.
Lemma relu_float_returns d iz is : returns d iz is relu_float relu.
Proof. intros code _. unfold relu_float, relu. destruct (Qle_bool _ 0); eexists; split; reflexivity. Qed.
Lemma trunc_small x : (0 <= x)%Q -> (x < 1)%Q -> Qtrunc x = 0.
Proof.
  intros H1 H2. unfold Qtrunc. rewrite (proj2 (Qle_bool_iff 0 x) H1).
  assert (A : Qfloor x < 1). { rewrite Zlt_Qlt. eapply Qle_lt_trans; [apply Qfloor_le|exact H2]. }
  assert (B : 0 <= Qfloor x). { change 0 with (Qfloor 0). now apply Qfloor_resp_le. } lia.
Qed.
(** With negative codes, max(0, x) yields the staircase of whole numbers: inputs below 1 all get the code of 0; max(0.0, x) is right. *)
Theorem C86_relu : forall d is iz os oz t u,
  within_int32 d -> diff_in_int32 d iz -> (0 < is)%Q -> gmin d <= iz ->
  (inject_Z (gmax d - iz) * is <= inject_Z (2 ^ 63 - 1))%Q ->
  create_LUT_py d relu_0x is iz os oz None = Ok t -> create_LUT_py d relu_float is iz os oz None = Ok u ->
  forall code, in_dtype d code ->
    nth_error u (Z.to_nat (code - gmin d)) = Some (code_for d oz os (relu (float_of iz is code))) /\
    nth_error t (Z.to_nat (code - gmin d)) = Some (code_for d oz os (inject_Z (Qtrunc (relu (float_of iz is code))))) /\
    ((float_of iz is code < 1)%Q -> nth_error t (Z.to_nat (code - gmin d)) = Some (code_for d oz os 0)).
Proof.
  intros d is iz os oz t u Hd Hz Hi Hiz Hmax Et Eu code Hc.
  assert (FF : Qle_bool (first_float d iz is) 0 = true).
  { apply Qle_bool_iff. unfold first_float. rewrite float_of_deq, (dequant1_nowrap d iz is (gmin d)).
    - assert (X : (inject_Z (gmin d - iz) <= 0)%Q) by (change 0%Q with (inject_Z 0); rewrite <- Zle_Qle; lia). nra.
    - exact Hd. - exact Hz. - destruct Hd. unfold in_dt. lia. }
  assert (B : forall c, in_dtype d c -> - 2 ^ 63 <= Qtrunc (relu (float_of iz is c)) <= 2 ^ 63 - 1).
  { intros c Hcc. unfold relu. destruct (Qle_bool (float_of iz is c) 0) eqn:A; [cbn; lia|].
    assert (P : (0 <= float_of iz is c)%Q). { destruct (Qlt_le_dec 0 (float_of iz is c)) as [K|K]; [lra|]. apply Qle_bool_iff in K. congruence. }
    unfold Qtrunc. rewrite (proj2 (Qle_bool_iff 0 _) P).
    assert (B0 : 0 <= Qfloor (float_of iz is c)). { change 0 with (Qfloor 0). now apply Qfloor_resp_le. }
    split; [lia|]. rewrite <- (Qfloor_Z (2 ^ 63 - 1)). apply Qfloor_resp_le. eapply Qle_trans; [|exact Hmax].
    rewrite float_of_deq, (dequant1_nowrap d iz is c); [|exact Hd|exact Hz|exact Hcc].
    apply Qmult_le_compat_r; [|lra]. rewrite <- Zle_Qle. destruct Hcc. lia. }
  split; [|split].
  - eapply (C86_float_first_entry d relu_float relu is iz os oz _ u); eauto; [apply relu_float_returns|reflexivity].
  - eapply (C86_int_first_entry d relu_0x relu is iz os oz 0 t); eauto; [apply relu_0x_returns|].
    unfold relu_0x. now rewrite FF.
  - intros H1. rewrite (C86_int_first_entry d relu_0x relu is iz os oz 0 t code Hd (relu_0x_returns _ _ _)); auto.
    + do 2 f_equal. change 0%Q with (inject_Z 0). f_equal. unfold relu. destruct (Qle_bool (float_of iz is code) 0) eqn:A; [reflexivity|].
      apply trunc_small; [|exact H1]. destruct (Qlt_le_dec 0 (float_of iz is code)) as [K|K]; [lra|]. apply Qle_bool_iff in K. congruence.
    + unfold relu_0x. now rewrite FF.
Qed.
(** int8, scale 1/128: the table of max(0, x) is constant; the table of max(0.0, x) is the identity on the codes above 0 *)
Example C86_relu_example :
  create_LUT_py int8 relu_0x (1#128) 0 (1#128) 0 None = Ok (repeat 0 256) /\
  create_LUT_py int8 relu_float (1#128) 0 (1#128) 0 None = Ok (repeat 0 128 ++ map Z.of_nat (seq 0 128)).
Proof. split; vm_compute; reflexivity. Qed.
(** the order of the arguments of max matters: uint8 with zero point 0, where the lowest code is 0.0 *)
Example C86_argument_order :
  let u8 := {| gmin := 0; gmax := 255; grepr := chars_of "uint8" |} in
  create_LUT_py u8 relu_0x (1#256) 0 (1#256) 0 None = Ok (repeat 0 256) /\
  create_LUT_py u8 relu_x0 (1#256) 0 (1#256) 0 None = Ok (map Z.of_nat (seq 0 256)).
Proof. split; vm_compute; reflexivity. Qed.

(** *** The converters' sigmoid *)
(** A table exists exactly when the lowest representable input is at least -lim, and is then the table of the sigmoid. *)
Theorem C86_sigmoid : forall d ex lim is iz os oz p,
  within_int32 d -> diff_in_int32 d iz -> (0 < is)%Q ->
  let low := (inject_Z (gmin d - iz) * is)%Q in
  ((- lim <= low)%Q -> create_LUT_py d (py_sigmoid ex lim) is iz os oz p = Ok (create_LUT d (fun x => 1 / (1 + ex (- x)))%Q is iz os oz p)) /\
  ((low < - lim)%Q -> create_LUT_py d (py_sigmoid ex lim) is iz os oz p = Err EOverflow).
Proof.
  intros d ex lim is iz os oz p Hd Hz Hi low.
  assert (E : forall c, in_dtype d c -> (float_of iz is c = inject_Z (c - iz) * is)%Q).
  { intros c Hc. rewrite float_of_deq. apply (dequant1_nowrap d iz is c Hd Hz Hc). }
  assert (Hmin : in_dtype d (gmin d)) by (destruct Hd; unfold in_dtype; lia).
  split; intros H.
  - assert (A : forall c, in_dtype d c -> Qle_bool (- float_of iz is c) lim = true).
    { intros c Hc. apply Qle_bool_iff. rewrite (E c Hc).
      assert (M : (low <= inject_Z (c - iz) * is)%Q). { apply Qmult_le_compat_r; [|lra]. rewrite <- Zle_Qle. destruct Hc. lia. } lra. }
    eapply C86_float_first.
    + destruct Hd. lia.
    + intros c Hc. unfold py_sigmoid. rewrite (A c Hc). eexists. split; reflexivity.
    + unfold first_float, py_sigmoid. rewrite (A _ Hmin). reflexivity.
  - apply C86_raises_first; [destruct Hd; lia|]. unfold first_float, py_sigmoid. rewrite (E _ Hmin).
    destruct (Qle_bool (- (inject_Z (gmin d - iz) * is)) lim) eqn:A; [|reflexivity]. apply Qle_bool_iff in A. unfold low in H. lra.
Qed.
Example C86_sigmoid_example :
  within_int32 int8 /\ diff_in_int32 int8 0 /\ (- (709#1) <= inject_Z (gmin int8 - 0) * 1)%Q /\ (inject_Z (gmin int8 - 0) * 6 < - (709#1))%Q.
Proof. unfold within_int32, diff_in_int32. repeat split; cbn; try lia; vm_compute; try discriminate; reflexivity. Qed.
Example C86_relu_ready : within_int32 int8 /\ diff_in_int32 int8 0 /\ (0 < 1#128)%Q /\ gmin int8 <= 0 /\
  (inject_Z (gmax int8 - 0) * (1#128) <= inject_Z (2 ^ 63 - 1))%Q /\ returns int8 0 (1#128) relu_0x relu /\
  relu_0x (first_float int8 0 (1#128)) = Ok (PyInt 0) /\ relu_float (first_float int8 0 (1#128)) = Ok (PyFloat 0).
Proof.
  split; [unfold within_int32, int8; cbn [gmin gmax]; lia|]. split; [unfold diff_in_int32, int8; cbn [gmin gmax]; lia|].
  split; [reflexivity|]. split; [unfold int8; cbn [gmin]; lia|]. split; [vm_compute; discriminate|].
  split; [apply relu_0x_returns|]. split; vm_compute; reflexivity.
Qed.
