From Verif Require Import Base BaseProofs DtypeModel.
From Coq Require Import Decimal DecimalString DecimalFacts DecimalN.
Open Scope Z_scope.
Open Scope list_scope.

Lemma chars_eqb_eq a b : chars_eqb a b = true <-> a = b.
Proof.
  revert b; induction a as [|x a IH]; intros [|y b]; simpl; try (split; congruence).
  rewrite andb_true_iff, IH, Ascii.eqb_eq. split; [intros []; congruence|].
  intros H; injection H; auto.
Qed.
Lemma chars_eqb_refl a : chars_eqb a a = true.
Proof. now apply chars_eqb_eq. Qed.

(** Per-character facts, by exhaustion over the 256 ASCII codes. *)
Definition all_ascii : list ascii := map (fun n => ascii_of_nat n) (seq 0 256).
Lemma all_ascii_in c : In c all_ascii.
Proof.
  unfold all_ascii. rewrite <- (ascii_nat_embedding c). apply in_map, in_seq.
  pose proof (nat_ascii_bounded c). lia.
Qed.
Lemma ascii_forall (P : ascii -> bool) : forallb P all_ascii = true -> forall c, P c = true.
Proof. intros H c. rewrite forallb_forall in H. apply H, all_ascii_in. Qed.

Lemma lower_digit c : is_digit (lower_c c) = is_digit c.
Proof.
  apply eqb_prop. revert c. apply ascii_forall. vm_compute. reflexivity. Qed.
Lemma lower_digit_id c : is_digit c = true -> lower_c c = c.
Proof.
  intros H. apply Ascii.eqb_eq.
  assert (A : forall c, implb (is_digit c) (Ascii.eqb (lower_c c) c) = true)
    by (apply ascii_forall; vm_compute; reflexivity).
  specialize (A c). rewrite H in A. exact A.
Qed.
Lemma lower_alpha c : is_alpha (lower_c c) = is_alpha c.
Proof. apply eqb_prop. revert c. apply ascii_forall. vm_compute. reflexivity. Qed.
Lemma digit_not_alpha c : is_digit c = true -> is_alpha c = false.
Proof.
  intros H.
  assert (A : forall c, implb (is_digit c) (negb (is_alpha c)) = true)
    by (apply ascii_forall; vm_compute; reflexivity).
  specialize (A c). rewrite H in A. now apply negb_true_iff in A.
Qed.
Lemma lower_c_idem c : lower_c (lower_c c) = lower_c c.
Proof.
  apply Ascii.eqb_eq. revert c. apply ascii_forall. vm_compute. reflexivity. Qed.
Lemma lower_idem s : lower (lower s) = lower s.
Proof. unfold lower. rewrite map_map. apply map_ext, lower_c_idem. Qed.
Lemma lower_app a b : lower (a ++ b) = lower a ++ lower b.
Proof. apply map_app. Qed.
Lemma lower_digits s : forallb is_digit s = true -> lower s = s.
Proof.
  induction s as [|c s IH]; simpl; [reflexivity|]. rewrite andb_true_iff. intros [A B].
  now rewrite lower_digit_id, IH.
Qed.

(** runs commute with lower *)
Lemma takewhile_map p f s : (forall c, p (f c) = p c) ->
  takewhile p (map f s) = map f (takewhile p s).
Proof. intros H; induction s as [|c s IH]; simpl; [reflexivity|]. rewrite H. destruct (p c); simpl; congruence. Qed.
Lemma dropwhile_map p f s : (forall c, p (f c) = p c) ->
  dropwhile p (map f s) = map f (dropwhile p s).
Proof. intros H; induction s as [|c s IH]; simpl; [reflexivity|]. rewrite H. destruct (p c); simpl; congruence. Qed.
Lemma takewhile_all p s : forallb p s = true -> takewhile p s = s.
Proof. induction s as [|c s IH]; simpl; [reflexivity|]. destruct (p c); simpl; [|discriminate]. intros; f_equal; auto. Qed.
Lemma takewhile_forall p s : forallb p (takewhile p s) = true.
Proof. induction s as [|c s IH]; simpl; [reflexivity|]. destruct (p c) eqn:E; simpl; [|reflexivity]. now rewrite E. Qed.
Lemma takewhile_app p a b : forallb p a = true -> (forall c r, b = c :: r -> p c = false) ->
  takewhile p (a ++ b) = a.
Proof.
  intros Ha Hb. induction a as [|c a IH]; simpl in *.
  - destruct b as [|c r]; [reflexivity|]. simpl. now rewrite (Hb c r).
  - destruct (p c); simpl in *; [|discriminate]. f_equal. auto.
Qed.
Lemma dropwhile_app p a b : forallb p a = true -> (forall c r, b = c :: r -> p c = false) ->
  dropwhile p (a ++ b) = b.
Proof.
  intros Ha Hb. induction a as [|c a IH]; simpl in *.
  - destruct b as [|c r]; [reflexivity|]. simpl. now rewrite (Hb c r).
  - destruct (p c); simpl in *; [|discriminate]. auto.
Qed.

(** decimal printing *)
Lemma digits_of_uint u : forallb is_digit (chars_of (NilEmpty.string_of_uint u)) = true.
Proof. induction u; simpl; auto. Qed.
Lemma dec_digits n : forallb is_digit (dec n) = true.
Proof. apply digits_of_uint. Qed.
Lemma string_roundtrip s : String.string_of_list_ascii (chars_of s) = s.
Proof. unfold chars_of. apply String.string_of_list_ascii_of_string. Qed.
Lemma int_of_dec n : int_of_digits (dec n) = Ok n.
Proof.
  unfold int_of_digits, dec. rewrite string_roundtrip, NilEmpty.usu.
  f_equal. apply Unsigned.of_to.
Qed.
Lemma dec_nonempty n : dec n <> [].
Proof.
  intros H. pose proof (int_of_dec n) as E. rewrite H in E. unfold int_of_digits in E.
  simpl in E. injection E as E. unfold dec in H. rewrite <- E in H. vm_compute in H. discriminate.
Qed.
Lemma dec_inj n m : dec n = dec m -> n = m.
Proof. intros H. pose proof (int_of_dec n) as A. rewrite H, int_of_dec in A. congruence. Qed.

Lemma uint_of_digits s : forallb is_digit s = true ->
  exists u, NilEmpty.uint_of_string (String.string_of_list_ascii s) = Some u.
Proof.
  induction s as [|c s IH]; simpl; [eexists; reflexivity|].
  rewrite andb_true_iff. intros [A B]. destruct (IH B) as [u ->].
  assert (X : forall c, implb (is_digit c) (match uint_of_char c (Some Nil) with Some _ => true | None => false end) = true)
    by (apply ascii_forall; vm_compute; reflexivity).
  specialize (X c). rewrite A in X. simpl in X.
  unfold uint_of_char in *.
  destruct c as [[] [] [] [] [] [] [] []]; try discriminate X; eexists; reflexivity.
Qed.
Lemma int_of_run s : forallb is_digit s = true -> exists n, int_of_digits s = Ok n.
Proof. intros H. unfold int_of_digits. destruct (uint_of_digits s H) as [u ->]. eauto. Qed.

Lemma first_run_cases p s :
  (existsb p s = false /\ first_run p s = Err EIndexError) \/
  (existsb p s = true /\ exists r, first_run p s = Ok r /\ r <> [] /\ forallb p r = true).
Proof.
  unfold first_run. induction s as [|c s IH]; simpl.
  - left. auto.
  - destruct (p c) eqn:E; simpl.
    + right. split; [reflexivity|]. exists (c :: takewhile p s).
      rewrite E. repeat split; [congruence|]. simpl. now rewrite E, takewhile_forall.
    + exact IH.
Qed.

Definition names : list chars := [chars_of "int"; chars_of "uint"; chars_of "float"].
Definition dtype_of (ty : chars) (n : N) : gdtype :=
  let b := Z.of_N n in
  if chars_eqb ty (chars_of "int")
  then {| gmin := - 2 ^ (b - 1); gmax := 2 ^ (b - 1) - 1; grepr := ty ++ dec n |}
  else {| gmin := 0; gmax := 2 ^ b - 1; grepr := ty ++ dec n |}.

Lemma names_allowed ty : In ty names <-> existsb (chars_eqb ty) ALLOWED = true.
Proof.
  rewrite existsb_exists. split.
  - intros H. exists ty. split; [|apply chars_eqb_refl]. unfold ALLOWED. simpl in *. intuition.
  - intros (x & Hx & E). apply chars_eqb_eq in E. subst. unfold ALLOWED in Hx. simpl in *. intuition.
Qed.
Lemma names_alpha ty : In ty names -> forallb is_alpha ty = true /\ lower ty = ty /\ ty <> [].
Proof.
  intros H. simpl in H.
  destruct H as [<-|[<-|[<-|[]]]]; vm_compute; repeat split; congruence.
Qed.

Lemma parse_complete s ty n :
  In ty names -> (0 < n)%N -> lower s = ty ++ dec n -> parse_dtype s = Ok (dtype_of ty n).
Proof.
  intros Hty Hn Hs. destruct (names_alpha _ Hty) as (Ha & Hl & Hne).
  assert (Hdh : forall c r, dec n = c :: r -> is_alpha c = false).
  { intros c r E. pose proof (dec_digits n) as D. rewrite E in D. simpl in D.
    apply andb_true_iff in D as [D _]. now apply digit_not_alpha. }
  assert (Hdd : forall c r, dec n = c :: r -> negb (is_digit c) = false).
  { intros c r E. pose proof (dec_digits n) as D. rewrite E in D. simpl in D.
    apply andb_true_iff in D as [D _]. now rewrite D. }
  assert (Hnd : forallb (fun c => negb (is_digit c)) ty = true).
  { clear - Ha. induction ty as [|c r IH]; simpl in *; [reflexivity|].
    apply andb_true_iff in Ha as [A B]. rewrite IH by exact B.
    destruct (is_digit c) eqn:E; [|reflexivity]. apply digit_not_alpha in E. congruence. }
  (* digit run *)
  assert (R1 : first_run is_digit s = Ok (dec n)).
  { unfold first_run.
    assert (E : takewhile is_digit (dropwhile (fun c => negb (is_digit c)) (lower s)) = dec n).
    { rewrite Hs, dropwhile_app by assumption. apply takewhile_all, dec_digits. }
    unfold lower in E.
    rewrite dropwhile_map in E by (intros; now rewrite lower_digit).
    rewrite takewhile_map in E by (intros; now rewrite lower_digit).
    fold (lower (takewhile is_digit (dropwhile (fun c => negb (is_digit c)) s))) in E.
    rewrite lower_digits in E by apply takewhile_forall. rewrite E.
    destruct (dec n) eqn:D; [now apply dec_nonempty in D|reflexivity]. }
  (* alpha run *)
  assert (R2 : exists t, first_run is_alpha s = Ok t /\ lower t = ty).
  { unfold first_run.
    assert (E : takewhile is_alpha (dropwhile (fun c => negb (is_alpha c)) (lower s)) = ty).
    { rewrite Hs.
      assert (D : dropwhile (fun c => negb (is_alpha c)) (ty ++ dec n) = ty ++ dec n).
      { destruct ty as [|c r]; [congruence|]. simpl in *. apply andb_true_iff in Ha as [A _]. now rewrite A. }
      rewrite D. now apply takewhile_app. }
    unfold lower in E.
    rewrite dropwhile_map in E by (intros; now rewrite lower_alpha).
    rewrite takewhile_map in E by (intros; now rewrite lower_alpha).
    fold (lower (takewhile is_alpha (dropwhile (fun c => negb (is_alpha c)) s))) in E.
    destruct (takewhile is_alpha _) as [|c r] eqn:T.
    - simpl in E. subst ty. now destruct Hne.
    - exists (c :: r). split; [reflexivity|exact E]. }
  destruct R2 as (t & R2 & Et).
  unfold parse_dtype. rewrite R1. cbn [rbind]. rewrite int_of_dec. cbn [rbind]. rewrite R2. cbn [rbind].
  cbv zeta. rewrite Et. apply names_allowed in Hty. rewrite Hty. cbn [negb].
  destruct (n <=? 0)%N eqn:En; [lia|].
  rewrite Hs, chars_eqb_refl. cbn [negb].
  unfold dtype_of. destruct (chars_eqb ty (chars_of "int")); reflexivity.
Qed.

Lemma parse_sound s d : parse_dtype s = Ok d ->
  exists ty n, In ty names /\ (0 < n)%N /\ lower s = ty ++ dec n /\ d = dtype_of ty n.
Proof.
  unfold parse_dtype. destruct (first_run is_digit s) as [ds|]; cbn [rbind]; [|discriminate].
  destruct (int_of_digits ds) as [n|]; cbn [rbind]; [|discriminate].
  destruct (first_run is_alpha s) as [t|]; cbn [rbind]; [|discriminate].
  cbv zeta. destruct (existsb _ ALLOWED) eqn:A; cbn [negb]; [|discriminate].
  destruct (n <=? 0)%N eqn:En; [discriminate|].
  destruct (chars_eqb (lower t ++ dec n) (lower s)) eqn:E; cbn [negb]; [|discriminate].
  intros H. injection H as <-. exists (lower t), n.
  apply names_allowed in A. apply chars_eqb_eq in E. repeat split; auto; [lia|].
  unfold dtype_of. change ["i"%char; "n"%char; "t"%char] with (chars_of "int"). destruct (chars_eqb (lower t) (chars_of "int")); reflexivity.
Qed.

Lemma parse_errors s e : parse_dtype s = Err e ->
  (e = EIndexError /\ (existsb is_digit s = false \/ existsb is_alpha s = false)) \/
  (e = ETypeError /\ existsb is_digit s = true /\ existsb is_alpha s = true).
Proof.
  unfold parse_dtype.
  destruct (first_run_cases is_digit s) as [[D ->]|[D (r & -> & _ & Hr)]]; cbn [rbind].
  { intros H; injection H as <-. left. auto. }
  destruct (int_of_run r Hr) as [n ->]. cbn [rbind].
  destruct (first_run_cases is_alpha s) as [[A ->]|[A (t & -> & _ & _)]]; cbn [rbind].
  { intros H; injection H as <-. left. auto. }
  cbv zeta. destruct (existsb _ ALLOWED); cbn [negb]; [|intros H; injection H as <-; auto].
  destruct (n <=? 0)%N; [intros H; injection H as <-; auto|].
  destruct (chars_eqb _ _); cbn [negb]; [discriminate|intros H; injection H as <-; auto].
Qed.

Lemma parse_repr_roundtrip s d : parse_dtype s = Ok d ->
  grepr d = lower s /\ parse_dtype (grepr d) = Ok d.
Proof.
  intros H. destruct (parse_sound _ _ H) as (ty & n & A & B & C & ->).
  assert (R : grepr (dtype_of ty n) = ty ++ dec n) by (unfold dtype_of; destruct (chars_eqb _ _); reflexivity).
  rewrite R. split; [now rewrite C|]. apply parse_complete; auto.
  rewrite lower_app, (lower_digits (dec n)) by apply dec_digits.
  now rewrite (proj1 (proj2 (names_alpha _ A))).
Qed.

(** numpy classes agree with the corresponding strings *)
Lemma numpy_agrees sg k d : numpy_dtype (NpInt sg k) = Ok d -> parse_dtype (grepr d) = Ok d.
Proof.
  unfold numpy_dtype. destruct (k <=? 3)%nat eqn:E; [|discriminate]. intros H; injection H as <-.
  assert (K : (k = 0 \/ k = 1 \/ k = 2 \/ k = 3)%nat) by lia.
  destruct K as [-> | [-> | [-> | ->]]]; destruct sg; vm_compute; reflexivity.
Qed.
