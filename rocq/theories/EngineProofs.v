From Verif Require Import Base BaseProofs DtypeModel QuantModel QuantProofs DtypeProofs LutModel LutProofs FcLayer EngineModel.
From Coq Require Import Lqa.
Open Scope Z_scope.
Open Scope list_scope.

(** ** lookups *)
Lemma py_index_in_range {A} (l : list A) i a : 0 <= i -> nth_error l (Z.to_nat i) = Some a -> py_index l i = Ok a.
Proof.
  intros Hi H. assert (L : (Z.to_nat i < length l)%nat) by (apply nth_error_Some; congruence).
  destruct (py_index_nonneg l i) as (b & Hb & ->); [lia|]. congruence.
Qed.
Lemma py_index_wrap {A} (l : list A) i : - Z.of_nat (length l) <= i < 0 ->
  py_index l i = py_index l (i + Z.of_nat (length l)).
Proof.
  intros H. unfold py_index. 
  destruct (i <? 0) eqn:E; [|apply Z.ltb_ge in E; lia].
  destruct (i + Z.of_nat (length l) <? 0) eqn:E2; [apply Z.ltb_lt in E2; lia|]. rewrite ?E2. reflexivity.
Qed.
Lemma py_index_out {A} (l : list A) i : Z.of_nat (length l) <= i \/ i < - Z.of_nat (length l) -> py_index l i = Err EIndexError.
Proof.
  intros H. unfold py_index. destruct (i <? 0) eqn:E; [apply Z.ltb_lt in E|apply Z.ltb_ge in E].
  - replace (i + Z.of_nat (length l) <? 0) with true by (symmetry; apply Z.ltb_lt; lia). reflexivity.
  - replace (Z.of_nat (length l) <=? i) with true by (symmetry; apply Z.leb_le; lia).
    rewrite orb_true_r. reflexivity.
Qed.

Lemma reduced_lookup lut depth m i a : 0 <= i -> nth_error lut (Z.to_nat i) = Some a ->
  getitem (deserialize (serialize (mk_rlut lut depth m false))) i = Ok a.
Proof.
  intros Hi H. rewrite deserialize_getitem.
  assert (Hne : lut <> []) by (destruct lut; [destruct (Z.to_nat i); discriminate|congruence]).
  assert (L : (Z.to_nat i < length lut)%nat) by (apply nth_error_Some; congruence).
  rewrite getitem_spec by exact Hne. rewrite clipZ_id by lia. now apply py_index_in_range.
Qed.

Lemma lut_infer_map a xs f : xs <> [] ->
  (forall x, In x xs -> lookup (la_table a) (x + la_offset a) = Ok (f x)) ->
  lut_infer a xs = Ok (map f xs).
Proof.
  intros Hn H. unfold lut_infer. destruct xs; [congruence|]. now apply mapM_ok_map.
Qed.

(** ** relu *)
Lemma Qtrunc_inject n : Qtrunc (inject_Z n) = n.
Proof.
  unfold Qtrunc. destruct (Qle_bool 0 (inject_Z n)); [apply Qfloor_Z|apply Qceiling_Z].
Qed.
Lemma Qtrunc_comp x y : (x == y)%Q -> Qtrunc x = Qtrunc y.
Proof.
  intros H. unfold Qtrunc. rewrite (Qfloor_comp _ _ H), (Qceiling_comp _ _ H).
  destruct (Qle_bool 0 x) eqn:A, (Qle_bool 0 y) eqn:B; try reflexivity.
  - apply Qle_bool_iff in A. rewrite H in A. apply Qle_bool_iff in A. congruence.
  - apply Qle_bool_iff in B. rewrite <- H in B. apply Qle_bool_iff in B. congruence.
Qed.
Lemma Qtrunc_near x : (Qabs (inject_Z (Qtrunc x) - x) < 1)%Q.
Proof.
  destruct (Qtrunc_bounds x) as [A B]. destruct (Qlt_le_dec x 0) as [C|C].
  - destruct (B C). apply Qabs_Qlt_condition. split; lra.
  - destruct (A C). apply Qabs_Qlt_condition. split; lra.
Qed.

Lemma relu_same s zp x : ~ (s == 0)%Q -> -128 <= x <= 127 -> -128 <= zp <= 127 ->
  relu_infer1 (mkrelu s zp s zp) x = Z.max x zp.
Proof.
  intros Hs Hx Hz. unfold relu_infer1. cbn [re_in_s re_in_zp re_out_s re_out_zp].
  rewrite (wrap_s_id 16 x) by lia.
  rewrite (Qtrunc_comp _ (inject_Z (Z.max x zp))).
  - rewrite Qtrunc_inject. apply wrap_s_id; lia.
  - rewrite inject_Z_minus. field. exact Hs.
Qed.

(** ** strings *)
Lemma prefix_of_spec p s : prefix_of p s = true <-> exists r, s = p ++ r.
Proof.
  revert s; induction p as [|a p IH]; intros s; simpl.
  - split; [intros _; exists s; reflexivity|reflexivity].
  - destruct s as [|b s]; [split; [discriminate|intros [r H]; discriminate]|].
    rewrite andb_true_iff, IH. split.
    + intros [E [r ->]]. apply Ascii.eqb_eq in E. subst. exists r. reflexivity.
    + intros [r H]. injection H as -> ->. split; [apply Ascii.eqb_refl|exists r; reflexivity].
Qed.
Lemma contains_spec p s : contains p s = true <-> exists a b, s = a ++ p ++ b.
Proof.
  revert p; induction s as [|c s IH]; intros p; cbn [contains].
  - rewrite orb_false_r, prefix_of_spec. split.
    + intros [r H]. exists [], r. exact H.
    + intros (a & b & H). destruct a; [exists b; exact H|discriminate].
  - rewrite orb_true_iff, prefix_of_spec, IH. split.
    + intros [[r H]|(a & b & H)]; [exists [], r; exact H|exists (c :: a), b; rewrite H; reflexivity].
    + intros (a & b & H). destruct a as [|x a]; [left; exists b; exact H|].
      right. injection H as -> ->. exists a, b. reflexivity.
Qed.

Lemma upper_c_idem c : upper_c (upper_c c) = upper_c c.
Proof. destruct c as [[] [] [] [] [] [] [] []]; reflexivity. Qed.
Lemma upper_lower_c c : upper_c (lower_c c) = upper_c c.
Proof. destruct c as [[] [] [] [] [] [] [] []]; reflexivity. Qed.
Lemma upper_idem s : upper (upper s) = upper s.
Proof. unfold upper. rewrite map_map. apply map_ext. exact upper_c_idem. Qed.
Lemma upper_lower s : upper (lower s) = upper s.
Proof. unfold upper, lower. rewrite map_map. apply map_ext. exact upper_lower_c. Qed.

Lemma chars_eqb_eq a b : chars_eqb a b = true <-> a = b.
Proof.
  revert b; induction a as [|x a IH]; intros [|y b]; simpl; split; intros H; try congruence; try reflexivity.
  - apply andb_true_iff in H as [E H]. apply Ascii.eqb_eq in E. apply IH in H. congruence.
  - injection H as -> ->. apply andb_true_iff. split; [apply Ascii.eqb_refl|apply IH; reflexivity].
Qed.

(** ** the layer loop *)
Lemma run_layers_app {V} (ls1 ls2 : list (layer V)) x acc :
  run_layers (ls1 ++ ls2) x acc =
  match run_layers ls1 x acc with
  | (i, Ok y) => run_layers ls2 y i
  | (i, Err e) => (i, Err e)
  end.
Proof.
  revert x acc; induction ls1 as [|l ls1 IH]; intros x acc; simpl; [reflexivity|].
  destruct (l x); [apply IH|reflexivity].
Qed.
Lemma run_layers_acc {V} (ls : list (layer V)) x acc :
  run_layers ls x acc = (acc ++ fst (run_layers ls x []), snd (run_layers ls x [])).
Proof.
  revert x acc; induction ls as [|l ls IH]; intros x acc; simpl; [rewrite app_nil_r; reflexivity|].
  destruct (l x) as [y|e]; [|rewrite app_nil_r; reflexivity].
  rewrite IH, (IH y [y]). cbn [fst snd]. rewrite <- app_assoc. reflexivity.
Qed.
