(** C36, C37: the rounding annealer and AdaRound. *)
From Verif Require Import Base BaseProofs DtypeModel QuantModel QuantProofs PropCore NodeModel EqModel PropNode PropEq BfsProofs PropBfs AnnealModel.
From Coq Require Import Lqa.
Open Scope Z_scope.
Open Scope list_scope.

(** ** Specification *)
Definition size (shape : list nat) : nat := fold_right Nat.mul 1%nat shape.
Definition rows (t : ptens) : nat := hd 0%nat (pt_shape t).
(** an array the annealer accepts: at least one dimension, and no dimension is 0 *)
Definition dense (t : ptens) : Prop := Forall (fun n => (0 < n)%nat) (pt_shape t).
Definition proper (t : ptens) : Prop := pt_shape t <> [] /\ dense t /\ length (pt_flat t) = size (pt_shape t).
Definition bitwise (t : ptens) : Prop := Forall (fun x => x = 0 \/ x = 1) (pt_flat t).
Definition entry (t : ptens) (k : nat) : Z := nth k (pt_flat t) 0.
(** the states reachable by moves *)
Inductive moves : nat -> pstate -> pstate -> Prop :=
| moves_0 s : moves 0 s s
| moves_S n s s1 s2 rs : pmove s rs = Ok s1 -> moves n s1 s2 -> moves (S n) s s2.

Lemma Qltb_lt x y : Qltb x y = true <-> (x < y)%Q.
Proof. unfold Qltb. rewrite negb_true_iff. split; intros H; [apply Qnot_le_lt; intros C; apply Qle_bool_iff in C; congruence|].
  destruct (Qle_bool y x) eqn:E; [|reflexivity]. apply Qle_bool_iff in E. exfalso. lra. Qed.
Lemma Qltb_ge x y : Qltb x y = false <-> (y <= x)%Q.
Proof. unfold Qltb. rewrite negb_false_iff. apply Qle_bool_iff. Qed.

(** ** Lemmas *)
Lemma flip_length : forall l i, length (flip l i) = length l.
Proof. induction l as [|x l IH]; intros [|i]; cbn; auto. Qed.
Lemma flip_nth : forall l i k, nth k (flip l i) 0 = if (k =? i)%nat && (k <? length l)%nat then Z.lxor (nth k l 0) 1 else nth k l 0.
Proof.
  induction l as [|x l IH]; intros i k; [destruct k; cbn; rewrite andb_comm; reflexivity|].
  destruct i as [|i], k as [|k]; cbn; try reflexivity. apply (IH i k).
Qed.
Lemma flip_flip : forall l i, (i < length l)%nat -> flip (flip l i) i = l.
Proof.
  induction l as [|x l IH]; intros [|i] H; cbn in *; [lia|lia| |].
  - f_equal. rewrite Z.lxor_assoc. change (Z.lxor 1 1) with 0. apply Z.lxor_0_r.
  - f_equal. apply IH. lia.
Qed.
Lemma size_pos s : Forall (fun n => (0 < n)%nat) s -> (0 < size s)%nat.
Proof. induction 1; cbn; [lia|]. fold (size l) in *. nia. Qed.
Lemma rows_size t : dense t -> pt_shape t <> [] -> (rows t <= size (pt_shape t))%nat.
Proof.
  unfold dense, rows. intros D N. destruct (pt_shape t) as [|n s]; [congruence|]. inversion D; subst. cbn. fold (size s).
  assert (0 < size s)%nat by now apply size_pos. nia.
Qed.

Lemma rows_pos t : proper t -> (0 < rows t)%nat.
Proof. intros (A & B & _). unfold rows, dense in *. destruct (pt_shape t); [congruence|]. inversion B; subst. assumption. Qed.
Lemma pmove_cons t s rs : proper t -> let i := (rs O mod rows t)%nat in (i < rows t)%nat /\ (i < length (pt_flat t))%nat /\
  pmove (t :: s) rs = do r <- pmove s (fun k => rs (S k)); Ok (mkpt (pt_shape t) (flip (pt_flat t) i) :: r).
Proof.
  intros P i. assert (RP := rows_pos t P). assert (L : (i < rows t)%nat) by (apply Nat.mod_upper_bound; lia).
  destruct P as (A & B & C). assert (L' : (i < length (pt_flat t))%nat). { rewrite C. eapply Nat.lt_le_trans; [exact L|]. now apply rows_size. }
  split; [exact L|]. split; [exact L'|]. unfold pmove. cbn [draws].
  assert (D : draw1 t (rs O) = Ok i). { subst i. clear L L' A B C. unfold draw1, rows in *. destruct (pt_shape t) as [|[|n] l]; cbn in RP; [lia|lia|reflexivity]. }
  rewrite D. cbn [rbind]. destruct (draws s (fun k => rs (S k))) as [l|]; [|reflexivity]. cbn [rbind flips]. unfold move1.
  apply Nat.ltb_lt in L'. rewrite L'. cbn [rbind]. destruct (flips s l); reflexivity.
Qed.
Lemma flip_proper t i : proper t -> proper (mkpt (pt_shape t) (flip (pt_flat t) i)).
Proof. intros (A & B & C). split; [exact A|]. split; [exact B|]. cbn. rewrite flip_length. exact C. Qed.

(** ** C36 *)
(** One move keeps shapes and changes exactly one entry of every tensor: a flat position below the number of rows. *)
Theorem C36_move : forall s rs, Forall proper s -> exists s', pmove s rs = Ok s' /\
  Forall2 (fun t t' => proper t' /\ pt_shape t' = pt_shape t /\ exists i, (i < rows t)%nat /\
    (i < length (pt_flat t))%nat /\ (forall k, k <> i -> entry t' k = entry t k) /\ entry t' i = Z.lxor (entry t i) 1) s s'.
Proof.
  induction s as [|t s IH]; intros rs F; [exists []; split; constructor|]. inversion F; subst.
  destruct (pmove_cons t s rs H1) as (L & Hi & E). rewrite E. cbn [rbind]. set (i := (rs O mod rows t)%nat) in *.
  destruct (IH (fun k => rs (S k)) H2) as (s' & E' & F'). rewrite E'. cbn [rbind]. eexists. split; [reflexivity|]. constructor; [|exact F'].
  split; [now apply flip_proper|]. split; [reflexivity|]. exists i. split; [exact L|]. split; [exact Hi|]. unfold entry. cbn [pt_flat]. split.
  - intros k Hk. rewrite flip_nth. apply Nat.eqb_neq in Hk. now rewrite Hk.
  - rewrite flip_nth, Nat.eqb_refl. apply Nat.ltb_lt in Hi. now rewrite Hi.
Qed.
Lemma lxor_bit x : x = 0 \/ x = 1 -> Z.lxor x 1 = 1 - x.
Proof. intros [-> | ->]; reflexivity. Qed.
Lemma flip_bits l i : Forall (fun x => x = 0 \/ x = 1) l -> Forall (fun x => x = 0 \/ x = 1) (flip l i).
Proof.
  revert i. induction l as [|x l IH]; intros i F; [constructor|]. inversion F; subst. destruct i; cbn; constructor; auto.
  rewrite lxor_bit by assumption. lia.
Qed.
Lemma pmove_Forall2 s rs s' : Forall proper s -> pmove s rs = Ok s' ->
  Forall2 (fun t t' => proper t' /\ exists i, (i < rows t)%nat /\ t' = mkpt (pt_shape t) (flip (pt_flat t) i)) s s'.
Proof.
  revert rs s'. induction s as [|t s IH]; intros rs s' F E; [assert (s' = []) by (cbn in E; congruence); subst; constructor|].
  inversion F; subst. destruct (pmove_cons t s rs H1) as (L & _ & E1). rewrite E1 in E. clear E1. set (i := (rs O mod rows t)%nat) in *.
  destruct (pmove s (fun k => rs (S k))) as [s1|] eqn:E2; [|discriminate]. cbn [rbind] in E.
  assert (s' = mkpt (pt_shape t) (flip (pt_flat t) i) :: s1) by congruence. subst s'. constructor; [|now apply (IH (fun k => rs (S k)))].
  split; [now apply flip_proper|]. exists i. split; [exact L|reflexivity].
Qed.
Lemma Forall2_trans_rel {A} (R1 R2 R3 : A -> A -> Prop) : (forall a b c, R1 a b -> R2 b c -> R3 a c) ->
  forall l1 l2 l3, Forall2 R1 l1 l2 -> Forall2 R2 l2 l3 -> Forall2 R3 l1 l3.
Proof.
  intros H l1 l2 l3 F. revert l3. induction F; intros l3 G; inversion G; subst; constructor; eauto.
Qed.
Lemma Forall2_weaken {A B} (R R' : A -> B -> Prop) l l' : (forall a b, R a b -> R' a b) -> Forall2 R l l' -> Forall2 R' l l'.
Proof. intros H F. induction F; constructor; auto. Qed.
Lemma Forall2_diag {A} (R : A -> A -> Prop) l : Forall (fun x => R x x) l -> Forall2 R l l.
Proof. induction 1; constructor; auto. Qed.
Lemma Forall2_right {A B} (P : B -> Prop) (R : A -> B -> Prop) l l' : (forall a b, R a b -> P b) -> Forall2 R l l' -> Forall P l'.
Proof. intros H F. induction F; constructor; eauto. Qed.

(** After any number of moves shapes and binary values are kept and no entry whose flat (row-major) position is
    at least the number of rows has changed. *)
Theorem C36_any_number_of_moves : forall n s s', Forall proper s -> moves n s s' ->
  Forall2 (fun t t' => proper t' /\ pt_shape t' = pt_shape t /\ length (pt_flat t') = length (pt_flat t) /\
    (bitwise t -> bitwise t') /\ (forall k, (rows t <= k)%nat -> entry t' k = entry t k)) s s'.
Proof.
  intros n s s' F M. induction M as [s|n s s1 s2 rs E M IH].
  - apply Forall2_diag. eapply Forall_impl; [|exact F]. intros t P. repeat split; auto; apply P.
  - assert (X := pmove_Forall2 s rs s1 F E).
    assert (F1 : Forall proper s1) by (eapply Forall2_right; [|exact X]; intros a b H; apply H).
    specialize (IH F1). eapply Forall2_trans_rel; [|exact X|exact IH]. cbv beta.
    intros a b c (P & i & L & EQ) (P' & S' & L' & B' & K'). subst b. unfold rows, bitwise, entry in *. cbn [pt_shape pt_flat] in *.
    split; [exact P'|]. split; [exact S'|]. split; [rewrite L'; apply flip_length|]. split.
    + intros B. apply B'. now apply flip_bits.
    + intros k Hk. rewrite K' by exact Hk. rewrite flip_nth. assert ((k =? i)%nat = false) as -> by (apply Nat.eqb_neq; lia). reflexivity.
Qed.
(** For a matrix: entry (i, j) of an r x c policy can only ever change if i*c + j < r, so with r <= c columns only
    entries of the first row can change and a row i >= 1 never does. *)
Theorem C36_matrix_frozen : forall n s s' r c t t' k i j, Forall proper s -> moves n s s' ->
  nth_error s k = Some t -> nth_error s' k = Some t' -> pt_shape t = [r; c] -> (i < r)%nat -> (j < c)%nat -> (r <= i * c + j)%nat ->
  nd_get (nd_of_pt t') [i; j] = nd_get (nd_of_pt t) [i; j].
Proof.
  intros n s s' r c t t' k i j F M E E' SH I J NC. assert (X := C36_any_number_of_moves n s s' F M).
  assert (Y : forall l l' k t t', Forall2 (fun t t' => proper t' /\ pt_shape t' = pt_shape t /\ length (pt_flat t') = length (pt_flat t) /\
    (bitwise t -> bitwise t') /\ (forall k, (rows t <= k)%nat -> entry t' k = entry t k)) l l' -> nth_error l k = Some t -> nth_error l' k = Some t' ->
    pt_shape t' = pt_shape t /\ (forall k, (rows t <= k)%nat -> entry t' k = entry t k)).
  { clear. intros l l' k t t' F. revert k. induction F as [|a b l l' H F IH]; intros [|k] E E'; try discriminate; [|now apply (IH k)].
    assert (a = t) by (cbn in E; congruence). assert (b = t') by (cbn in E'; congruence). subst. split; apply H. }
  destruct (Y s s' k t t' X E E') as [S1 K]. unfold nd_of_pt. cbn [nd_get]. rewrite S1, SH. cbn [flat_index fold_right].
  f_equal. apply K. unfold rows. rewrite SH. cbn [hd]. lia.
Qed.

(** Parity: each move flips one entry of every tensor, so the numbers of set bits of two tensors always
    change parity together (here kernel and bias cannot be rounded independently). *)
Definition ones (t : ptens) : Z := sumZ (pt_flat t).
Lemma flip_sum l i : Forall (fun x => x = 0 \/ x = 1) l -> (i < length l)%nat -> (sumZ (flip l i) + sumZ l + 1) mod 2 = 0.
Proof.
  revert i. induction l as [|x l IH]; intros i F L; [cbn in L; lia|]. inversion F; subst. destruct i as [|i]; cbn [flip sumZ fold_right].
  - rewrite lxor_bit by assumption. fold (sumZ l). replace (1 - x + sumZ l + (x + sumZ l) + 1) with ((sumZ l + 1) * 2) by lia. apply Z.mod_mul. lia.
  - fold (sumZ (flip l i)) (sumZ l). replace (x + sumZ (flip l i) + (x + sumZ l) + 1) with (sumZ (flip l i) + sumZ l + 1 + x * 2) by lia.
    rewrite Z.mod_add by lia. apply IH; [assumption|cbn in L; lia].
Qed.
Theorem C36_parity : forall n s s', Forall proper s -> Forall bitwise s -> moves n s s' ->
  Forall2 (fun t t' => (ones t' + ones t + Z.of_nat n) mod 2 = 0) s s'.
Proof.
  intros n s s' F B M. induction M as [s|n s s1 s2 rs E M IH].
  - apply Forall2_diag. eapply Forall_impl; [|exact F]. intros t _. replace (ones t + ones t + Z.of_nat 0) with (ones t * 2) by lia. apply Z.mod_mul. lia.
  - assert (X := pmove_Forall2 s rs s1 F E).
    assert (X' : Forall2 (fun t t1 => proper t1 /\ bitwise t1 /\ (ones t1 + ones t + 1) mod 2 = 0) s s1).
    { clear IH M E n s2. revert B F. induction X as [|a b l l' H X IHX]; intros B F; constructor; [|apply IHX; [now inversion B|now inversion F]].
      destruct H as (P & i & L & ->). apply Forall_inv in B, F. split; [exact P|]. split; [now apply flip_bits|].
      unfold ones. cbn [pt_flat]. apply flip_sum; [exact B|]. destruct F as (Q1 & Q2 & ->). eapply Nat.lt_le_trans; [exact L|]. now apply rows_size. }
    assert (F1 : Forall proper s1) by (eapply Forall2_right; [|exact X']; intros a b H; apply H).
    assert (B1 : Forall bitwise s1) by (eapply Forall2_right; [|exact X']; intros a b H; apply H).
    specialize (IH F1 B1). eapply Forall2_trans_rel; [|exact X'|exact IH]. cbv beta. intros a b c (_ & _ & P1) P2.
    apply Z.mod_divide in P1; [|lia]. apply Z.mod_divide in P2; [|lia]. destruct P1 as (u & P1). destruct P2 as (v & P2).
    apply Z.mod_divide; [lia|]. exists (u + v - ones b). lia.
Qed.
Theorem C36_joint_parity : forall n t1 t2 t1' t2', Forall proper [t1; t2] -> Forall bitwise [t1; t2] ->
  moves n [t1; t2] [t1'; t2'] -> (ones t1' - ones t1) mod 2 = (ones t2' - ones t2) mod 2.
Proof.
  intros n t1 t2 t1' t2' F B M. assert (X := C36_parity n _ _ F B M). inversion X as [|? ? ? ? A1 X1]; subst. inversion X1 as [|? ? ? ? A2 X2]; subst.
  apply Z.mod_divide in A1; [|lia]. apply Z.mod_divide in A2; [|lia]. destruct A1 as (u & A1). destruct A2 as (v & A2).
  replace (ones t1' - ones t1) with (ones t2' - ones t2 + (u - v - ones t1 + ones t2) * 2) by lia. apply Z.mod_add. lia.
Qed.

(** A single tensor: every pattern that agrees from position [rows] on can be reached. *)
Lemma moves_app n m s1 s2 s3 : moves n s1 s2 -> moves m s2 s3 -> moves (n + m) s1 s3.
Proof. intros A B. induction A; [exact B|]. cbn. econstructor; eauto. Qed.
Lemma nth_ext_Z (l l' : list Z) : length l = length l' -> (forall k, nth k l 0 = nth k l' 0) -> l = l'.
Proof. intros L H. apply (nth_ext l l' 0 0 L). intros; apply H. Qed.
Theorem C36_single_tensor_reachable : forall t t', proper t -> bitwise t -> bitwise t' -> pt_shape t' = pt_shape t ->
  length (pt_flat t') = length (pt_flat t) -> (forall k, (rows t <= k)%nat -> entry t' k = entry t k) -> exists n, moves n [t] [t'].
Proof.
  intros t t' P B B' SH LE AG.
  (* fix positions one after the other *)
  assert (G : forall m u, proper u -> bitwise u -> pt_shape u = pt_shape t -> length (pt_flat u) = length (pt_flat t) ->
    (forall k, (m <= k)%nat -> entry t' k = entry u k) -> (m <= rows t)%nat -> exists n, moves n [u] [t']).
  { induction m as [|m IH]; intros u PU BU SU LU AU LM.
    - exists 0%nat. assert (u = t'); [|subst; constructor]. destruct u as [us uf], t' as [ts tf]. cbn in *. f_equal; [congruence|].
      apply nth_ext_Z; [congruence|]. intros k. symmetry. apply AU. lia.
    - destruct (Z.eq_dec (entry t' m) (entry u m)) as [E|E].
      + apply (IH u); try assumption; [|lia]. intros k Hk. destruct (Nat.eq_dec k m) as [-> | N]; [exact E|apply AU; lia].
      + destruct (Nat.lt_ge_cases m (length (pt_flat u))) as [LT|GE].
        2:{ exfalso. apply E. unfold entry. rewrite !nth_overflow; [reflexivity|exact GE|rewrite LE, <- LU; exact GE]. }
        assert (RU : rows u = rows t) by (unfold rows; now rewrite SU).
        destruct (pmove_cons u [] (fun _ => m) PU) as (L & _ & EM). cbv beta in L, EM. rewrite Nat.mod_small in L, EM by lia.
        destruct (IH (mkpt (pt_shape u) (flip (pt_flat u) m))) as (n & MV).
        * now apply flip_proper.
        * now apply flip_bits.
        * exact SU.
        * cbn. now rewrite flip_length.
        * intros k Hk. unfold entry at 2. cbn [pt_flat]. rewrite flip_nth. destruct (Nat.eqb_spec k m) as [-> | N].
          -- assert ((m <? length (pt_flat u))%nat = true) as -> by now apply Nat.ltb_lt. cbn [andb].
             assert (X1 : entry u m = 0 \/ entry u m = 1). { unfold entry. unfold bitwise in BU. rewrite Forall_forall in BU. apply BU, nth_In. exact LT. }
             assert (X2 : entry t' m = 0 \/ entry t' m = 1). { unfold entry. unfold bitwise in B'. rewrite Forall_forall in B'. apply B', nth_In. lia. }
             fold (entry u m). rewrite lxor_bit by exact X1. lia.
          -- cbn [andb]. apply AU. lia.
        * lia.
        * exists (S n). econstructor; [|exact MV]. rewrite EM. reflexivity. }
  apply (G (rows t) t); auto.
Qed.
(** Degenerate policies raise. *)
Theorem C36_degenerate : forall t s rs, (pt_shape t = [] -> pmove (t :: s) rs = Err ETypeError) /\ (hd_error (pt_shape t) = Some 0%nat -> pmove (t :: s) rs = Err EValueError) /\
  (Forall proper s -> (0 < rows t)%nat -> ~ dense t -> length (pt_flat t) = size (pt_shape t) -> pmove (t :: s) rs = Err EIndexError).
Proof.
  intros t s rs. split; [|split].
  - intros H. unfold pmove. cbn [draws]. unfold draw1. now rewrite H.
  - intros H. unfold pmove. cbn [draws]. unfold draw1. destruct (pt_shape t) as [|[|n] l]; try discriminate. reflexivity.
  - intros F R ND L. assert (D : exists i, draw1 t (rs O) = Ok i).
    { unfold draw1, rows in *. destruct (pt_shape t) as [|[|n] l]; cbn in R; [lia|lia|eexists; reflexivity]. }
    destruct D as (i & D). assert (DS : exists l, draws s (fun k => rs (S k)) = Ok l).
    { generalize (fun k => rs (S k)). clear -F. induction F as [|u s P F IH]; intros g; [eexists; reflexivity|]. cbn [draws].
      assert (U : exists i, draw1 u (g O) = Ok i). { assert (RP := rows_pos u P). unfold draw1, rows in *. destruct (pt_shape u) as [|[|n] l]; cbn in RP; [lia|lia|eexists; reflexivity]. }
      destruct U as (i & ->). destruct (IH (fun k => g (S k))) as (l & ->). eexists. reflexivity. }
    destruct DS as (l & DS). unfold pmove. cbn [draws]. rewrite D, DS. cbn [rbind flips]. unfold move1.
    assert (Z0 : length (pt_flat t) = 0%nat).
    { rewrite L. clear -ND. unfold dense, size in *. induction (pt_shape t) as [|n s IH]; [exfalso; apply ND; constructor|]. cbn.
      destruct n as [|n]; [reflexivity|]. rewrite IH; [lia|]. intros H. apply ND. constructor; [lia|exact H]. }
    rewrite Z0. reflexivity.
Qed.
Definition ex_kernel := mkpt [2%nat; 3%nat] [0; 1; 0; 1; 1; 0].
Definition ex_bias := mkpt [2%nat] [1; 0].
Example C36_example : Forall proper [ex_kernel; ex_bias] /\ Forall bitwise [ex_kernel; ex_bias] /\
  pmove [ex_kernel; ex_bias] (fun k => if (k =? 0)%nat then 1%nat else 4%nat) = Ok [mkpt [2%nat; 3%nat] [0; 0; 0; 1; 1; 0]; mkpt [2%nat] [0; 0]].
Proof.
  unfold proper, bitwise, dense, rows. split; [|split; [|reflexivity]].
  - repeat constructor; cbn; try lia; discriminate.
  - repeat constructor; cbn; lia.
Qed.

(** ** C37 *)
Definition reach (s s' : pstate) : Prop := exists n, moves n s s'.
Lemma reach_refl s : reach s s. Proof. exists 0%nat. constructor. Qed.
Lemma reach_step s s1 s2 rs : reach s s1 -> pmove s1 rs = Ok s2 -> reach s s2.
Proof. intros [n H] E. exists (n + 1)%nat. eapply moves_app; [exact H|]. econstructor; [exact E|constructor]. Qed.
Lemma reach_trans s s1 s2 : reach s s1 -> reach s1 s2 -> reach s s2.
Proof. intros [n H] [m G]. exists (n + m)%nat. eapply moves_app; eauto. Qed.

(** the states the descent evaluates, in order, until it stops *)
Fixpoint evaluated (energy : pstate -> Q) (max turns : nat) (rs : nat -> nat -> nat) (m : minima) : list pstate :=
  match turns with
  | O => []
  | S t =>
      match pmove (m_state m) (rs O), minima_step energy (rs O) m with
      | Ok s, Ok m1 => s :: (if (max <? m_stuck m1)%nat then [] else evaluated energy max t (fun k => rs (S k)) m1)
      | _, _ => []
      end
  end.

Lemma minima_step_cases energy rs m m1 : minima_step energy rs m = Ok m1 -> exists s, pmove (m_state m) rs = Ok s /\
  (((energy s < m_energy m)%Q /\ m1 = mkmin s s (energy s) 0) \/
   ((m_energy m <= energy s)%Q /\ m1 = mkmin (m_best m) (m_best m) (m_energy m) (S (m_stuck m)))).
Proof.
  unfold minima_step. destruct (pmove (m_state m) rs) as [s|] eqn:E; [|discriminate]. cbn [rbind]. intros H. exists s. split; [reflexivity|].
  destruct (Qltb (energy s) (m_energy m)) eqn:Q.
  - apply Qltb_lt in Q. left. split; [exact Q|congruence].
  - apply Qltb_ge in Q. right. split; [exact Q|congruence].
Qed.
Lemma minima_loop_inv energy max : forall turns rs m b e, minima_loop energy max turns rs m = Ok (Some (b, e)) ->
  ((b = m_best m /\ e = m_energy m) \/ (e = energy b /\ (e < m_energy m)%Q)) /\
  (forall s, In s (evaluated energy max turns rs m) -> (e <= energy s)%Q) /\
  (b = m_best m \/ In b (evaluated energy max turns rs m)).
Proof.
  induction turns as [|t IH]; intros rs m b e E; [discriminate|]. cbn [minima_loop evaluated] in *.
  destruct (minima_step energy (rs O) m) as [m1|] eqn:EM; [|discriminate]. cbn [rbind] in E.
  destruct (minima_step_cases _ _ _ _ EM) as (s & ES & C). rewrite ES.
  destruct (max <? m_stuck m1)%nat.
  - assert (b = m_best m1 /\ e = m_energy m1) as [-> ->] by (split; congruence).
    destruct C as [(L & ->)|(L & ->)]; cbn; (split; [|split]).
    + right. split; [reflexivity|exact L].
    + intros x [<- | []]. lra.
    + auto.
    + left. split; reflexivity.
    + intros x [<- | []]. exact L.
    + left. reflexivity.
  - destruct (IH _ _ _ _ E) as (I1 & I2 & I3). destruct C as [(L & ->)|(L & ->)]; cbn [m_best m_energy m_state] in *; (split; [|split]).
    + destruct I1 as [(-> & ->)|(-> & I1)]; right; (split; [reflexivity|]); lra.
    + intros x [<- | X]; [|now apply I2]. destruct I1 as [(-> & ->)|(-> & I1)]; lra.
    + destruct I3 as [-> | I3]; [right; now left|right; now right].
    + exact I1.
    + intros x [<- | X]; [|now apply I2]. destruct I1 as [(-> & ->)|(-> & I1)]; lra.
    + destruct I3 as [-> | I3]; [now left|right; now right].
Qed.
Lemma evaluated_reach energy max s0 : forall turns rs m, reach s0 (m_state m) -> reach s0 (m_best m) ->
  forall s, In s (evaluated energy max turns rs m) -> reach s0 s.
Proof.
  induction turns as [|t IH]; intros rs m R RB s I; [destruct I|]. cbn [evaluated] in I.
  destruct (minima_step energy (rs O) m) as [m1|] eqn:EM; [|destruct (pmove (m_state m) (rs O)); contradiction].
  destruct (minima_step_cases _ _ _ _ EM) as (s1 & ES & C). rewrite ES in I. destruct I as [I|I]; [subst s1; exact (reach_step _ _ _ _ R ES)|].
  destruct (max <? m_stuck m1)%nat; [contradiction|]. apply (IH _ m1) with (s := s) in I; [exact I| |];
    destruct C as [(L & ->)|(L & ->)]; cbn; try assumption; exact (reach_step _ _ _ _ R ES).
Qed.

(** The descent returns either what it was given or a strictly better state it evaluated; its result is the lowest
    cost it met; and it only returns after [max_retries]+1 failures in a row. *)
Theorem C37_descent : forall energy max turns rs neigh e0 b e, to_minima energy max turns rs neigh neigh e0 = Ok (Some (b, e)) ->
  ((b = neigh /\ e = e0) \/ (e = energy b /\ (e < e0)%Q)) /\
  (forall s, In s (evaluated energy max turns rs (mkmin neigh neigh e0 0)) -> (e <= energy s)%Q) /\
  (b = neigh \/ In b (evaluated energy max turns rs (mkmin neigh neigh e0 0))) /\ reach neigh b.
Proof.
  intros energy max turns rs neigh e0 b e E. destruct (minima_loop_inv _ _ _ _ _ _ _ E) as (A & B & C). split; [exact A|]. split; [exact B|]. split; [exact C|].
  destruct C as [-> | C]; [apply reach_refl|]. revert C. apply evaluated_reach; apply reach_refl.
Qed.

(** The library loop keeps a copy of the best state. *)
Lemma lib_loop_inv energy s0 : forall steps rs acc l l', lib_loop energy steps rs acc l = Ok l' ->
  reach s0 (li_state l) -> reach s0 (li_prev l) -> reach s0 (li_best l) -> li_bestE l = energy (li_best l) ->
  reach s0 (li_best l') /\ li_bestE l' = energy (li_best l') /\ (li_bestE l' <= li_bestE l)%Q.
Proof.
  induction steps as [|n IH]; intros rs acc l l' E R1 R2 R3 EE; cbn [lib_loop] in E.
  - assert (l' = l) by congruence. subst. split; [exact R3|]. split; [exact EE|]. lra.
  - unfold lib_step in E at 1. destruct (pmove (li_state l) (rs O)) as [s|] eqn:EM; [|discriminate]. cbn [rbind] in E.
    assert (RS : reach s0 s) by exact (reach_step _ _ _ _ R1 EM).
    destruct (Qltb (li_prevE l) (energy s) && negb (acc O)).
    + apply IH in E; cbn [li_state li_prev li_best li_bestE] in *; auto.
    + destruct (Qltb (energy s) (li_bestE l)) eqn:Q.
      * apply Qltb_lt in Q. apply IH in E; cbn [li_state li_prev li_best li_bestE] in *; auto. destruct E as (A & B & C). split; [exact A|]. split; [exact B|]. lra.
      * apply IH in E; cbn [li_state li_prev li_best li_bestE] in *; auto.
Qed.
Lemma lib_anneal_inv energy steps rs acc s0 b e : lib_anneal energy steps rs acc s0 = Ok (b, e) ->
  reach s0 b /\ e = energy b /\ (e <= energy s0)%Q.
Proof.
  unfold lib_anneal. destruct (lib_loop _ _ _ _ _) as [l|] eqn:E; [|discriminate]. cbn [rbind]. intros H.
  assert (b = li_best l /\ e = li_bestE l) as [-> ->] by (split; congruence).
  apply (lib_loop_inv energy s0) in E; cbn [li_state li_prev li_best li_bestE] in *; auto using reach_refl.
Qed.
(** The whole annealer: as long as no reachable state has cost exactly 0, it returns a reachable state with its own cost,
    and that cost is no worse than the cost of the initial policies. *)
Theorem C37_anneal_never_worse : forall energy steps max turns rs rs' acc s0 b e,
  (forall s, reach s0 s -> ~ (energy s == 0)%Q) ->
  anneal energy steps max turns rs rs' acc s0 = Ok (Some (b, e)) ->
  reach s0 b /\ e = energy b /\ (e <= energy s0)%Q.
Proof.
  intros energy steps max turns rs rs' acc s0 b e NZ E. unfold anneal in E.
  destruct (lib_anneal energy steps rs acc s0) as [[b1 e1]|] eqn:EL; [|discriminate]. cbn [rbind fst snd] in E.
  apply lib_anneal_inv in EL. destruct EL as (R & -> & LE).
  destruct (Qeq_bool (energy b1) 0) eqn:Z; [apply Qeq_bool_iff in Z; now apply NZ in Z|].
  destruct (C37_descent _ _ _ _ _ _ _ _ E) as (A & _ & _ & R'). split; [eapply reach_trans; eauto|].
  destruct A as [(-> & ->)|(-> & L)]; (split; [reflexivity|]); lra.
Qed.
(** Costs are allowed to be 0 if the annealer then only meets costs below [sys.maxsize]: it still returns a true cost, but
    not necessarily the best one. *)
Theorem C37_anneal_zero_true_cost : forall energy steps max turns rs rs' acc s0 b e,
  anneal energy steps max turns rs rs' acc s0 = Ok (Some (b, e)) ->
  reach s0 b /\ (e = energy b \/ ((energy b == 0)%Q /\ e = maxsize)).
Proof.
  intros energy steps max turns rs rs' acc s0 b e E. unfold anneal in E.
  destruct (lib_anneal energy steps rs acc s0) as [[b1 e1]|] eqn:EL; [|discriminate]. cbn [rbind fst snd] in E.
  apply lib_anneal_inv in EL. destruct EL as (R & -> & LE).
  destruct (C37_descent _ _ _ _ _ _ _ _ E) as (A & _ & _ & R'). split; [eapply reach_trans; eauto|].
  destruct (Qeq_bool (energy b1) 0) eqn:Z; destruct A as [(-> & ->)|(-> & L)]; auto. right. split; [now apply Qeq_bool_iff|reflexivity].
Qed.
(** Refuted: from a perfect state (cost 0) the annealer returns a worse one. *)
Definition ex_cost (s : pstate) : Q := inject_Z (sumZ (map (fun t => sumZ (pt_flat t)) s)).
Theorem C37_zero_energy_refuted : exists s0 b e, Forall proper s0 /\ Forall bitwise s0 /\ (ex_cost s0 == 0)%Q /\
  anneal ex_cost 0 100 103 (fun _ _ => 0%nat) (fun k _ => if (k =? 0)%nat then 0%nat else 1%nat) (fun _ => true) s0 = Ok (Some (b, e)) /\ (e == 1)%Q /\ (ex_cost b == 1)%Q.
Proof.
  exists [mkpt [3%nat] [0; 0; 0]]. eexists _, _. split; [repeat constructor; cbn; (lia || discriminate)|]. split; [repeat constructor; cbn; lia|].
  split; [reflexivity|]. split; [vm_compute; reflexivity|]. split; reflexivity.
Qed.

(** The descent stops: for every cost function and every sequence of draws. *)
Lemma minima_loop_stops energy max (L : list pstate) (okst : pstate -> Prop) :
  (forall s rs, okst s -> exists s', pmove s rs = Ok s' /\ okst s') -> (forall s, okst s -> In s L) ->
  forall turns rs m, okst (m_state m) -> okst (m_best m) -> (m_stuck m <= max)%nat ->
    (length (filter (fun s => Qltb (energy s) (m_energy m)) L) * (max + 1) + (max + 1 - m_stuck m) <= turns)%nat ->
    exists b e, minima_loop energy max turns rs m = Ok (Some (b, e)).
Proof.
  intros MV IN. induction turns as [|t IH]; intros rs m S1 S2 LE TU; [lia|]. cbn [minima_loop].
  destruct (minima_step energy (rs O) m) as [m1|] eqn:EM.
  2:{ exfalso. unfold minima_step in EM. destruct (MV _ (rs O) S1) as (s' & E & _). rewrite E in EM. discriminate. }
  cbn [rbind]. destruct (minima_step_cases _ _ _ _ EM) as (s & ES & C). destruct (MV _ (rs O) S1) as (s' & E & O). assert (s' = s) by congruence. subst s'.
  destruct C as [(Q1 & ->)|(Q1 & ->)]; cbn [m_state m_best m_stuck m_energy].
  - assert ((max <? 0)%nat = false) as -> by (apply Nat.ltb_ge; lia). apply IH; cbn [m_state m_best m_stuck m_energy]; auto; [lia|].
    assert (X : (length (filter (fun s0 => Qltb (energy s0) (energy s)) L) < length (filter (fun s0 => Qltb (energy s0) (m_energy m)) L))%nat).
    { clear - Q1 O IN. assert (I := IN s O). clear IN O. induction L as [|x l IHl]; [destruct I|]. cbn [filter].
      assert (W : forall k, (length (filter (fun s0 => Qltb (energy s0) (energy s)) k) <= length (filter (fun s0 => Qltb (energy s0) (m_energy m)) k))%nat).
      { induction k as [|y k IHk]; [apply le_n|]. cbn [filter]. destruct (Qltb (energy y) (energy s)) eqn:Y.
        - apply Qltb_lt in Y. assert (Qltb (energy y) (m_energy m) = true) as -> by (apply Qltb_lt; lra). cbn. lia.
        - destruct (Qltb (energy y) (m_energy m)); cbn; lia. }
      destruct I as [-> | I].
      - assert (Qltb (energy s) (energy s) = false) as -> by (apply Qltb_ge; lra). assert (Qltb (energy s) (m_energy m) = true) as -> by (now apply Qltb_lt).
        cbn. specialize (W l). lia.
      - specialize (IHl I). destruct (Qltb (energy x) (energy s)) eqn:Y.
        + apply Qltb_lt in Y. assert (Qltb (energy x) (m_energy m) = true) as -> by (apply Qltb_lt; lra). cbn. lia.
        + destruct (Qltb (energy x) (m_energy m)); cbn; lia. }
    revert X TU. generalize (length (filter (fun s0 => Qltb (energy s0) (energy s)) L)) (length (filter (fun s0 => Qltb (energy s0) (m_energy m)) L)).
    intros u v X TU. nia.
  - destruct (max <? S (m_stuck m))%nat eqn:ST; [eexists _, _; reflexivity|]. apply Nat.ltb_ge in ST.
    apply IH; cbn [m_state m_best m_stuck m_energy]; auto. lia.
Qed.
Fixpoint all_bits (n : nat) : list (list Z) :=
  match n with O => [[]] | S k => map (cons 0) (all_bits k) ++ map (cons 1) (all_bits k) end.
Lemma all_bits_in l : Forall (fun x => x = 0 \/ x = 1) l -> In l (all_bits (length l)).
Proof. induction 1 as [|x l H F IH]; [now left|]. cbn. apply in_app_iff. destruct H as [-> | ->]; [left|right]; now apply in_map. Qed.
Fixpoint all_states (s : pstate) : list pstate :=
  match s with [] => [[]] | t :: r => flat_map (fun f => map (cons (mkpt (pt_shape t) f)) (all_states r)) (all_bits (length (pt_flat t))) end.
Definition same_frame (s s' : pstate) : Prop := Forall2 (fun t t' => pt_shape t' = pt_shape t /\ length (pt_flat t') = length (pt_flat t) /\ proper t' /\ bitwise t') s s'.
Lemma all_states_in s s' : same_frame s s' -> In s' (all_states s).
Proof.
  induction 1 as [|t t' s s' (A & B & C & D) F IH]; [now left|]. cbn [all_states]. apply in_flat_map. exists (pt_flat t').
  split; [rewrite <- B; now apply all_bits_in|]. destruct t' as [sh fl]. cbn in *. subst sh. now apply in_map.
Qed.
Lemma same_frame_move s s1 rs : same_frame s s1 -> exists s2, pmove s1 rs = Ok s2 /\ same_frame s s2.
Proof.
  intros F. assert (P : Forall proper s1) by (eapply Forall2_right; [|exact F]; intros a b H; apply H).
  destruct (C36_move s1 rs P) as (s2 & E & _). exists s2. split; [exact E|]. assert (X := pmove_Forall2 _ _ _ P E).
  eapply Forall2_trans_rel; [|exact F|exact X]. cbv beta. intros a b c (A & B & C & D) (P' & i & L & ->).
  split; [exact A|]. cbn [pt_flat]. rewrite flip_length. split; [exact B|]. split; [exact P'|]. now apply flip_bits.
Qed.
Theorem C37_descent_terminates : forall s0, Forall proper s0 -> Forall bitwise s0 -> forall max, exists bound, forall energy rs e0 turns, (bound <= turns)%nat ->
  exists b e, to_minima energy max turns rs s0 s0 e0 = Ok (Some (b, e)).
Proof.
  intros s0 P B max. exists ((length (all_states s0)) * (max + 1) + (max + 1))%nat. intros energy rs e0 turns LE.
  assert (F : same_frame s0 s0). { apply Forall2_diag. apply Forall_forall. intros t I. rewrite Forall_forall in P, B. auto. }
  apply (minima_loop_stops energy max (all_states s0) (same_frame s0)); cbn [m_state m_best m_stuck m_energy]; auto.
  - intros s rs' H. now apply same_frame_move.
  - apply all_states_in.
  - lia.
  - assert (X : (length (filter (fun s => Qltb (energy s) e0) (all_states s0)) <= length (all_states s0))%nat) by (generalize (all_states s0) as l; induction l as [|x l IHl]; cbn [filter]; [lia|destruct (Qltb (energy x) e0); cbn; lia]). nia.
Qed.

(** ** AdaRound on the network's nodes *)
(** the targets of one layer: distinct tensor nodes or LUTs *)
Definition target_ok (w : world) (t : target) (p : ptens) : Prop :=
  match t with
  | TNode i => exists x, n_tens (w i) = Some x /\ pt_shape p = nd_shape (t_fp x)
  | TLut i => n_lut (w i) <> None
  end.
(** worlds that agree except for the rounding policies (and hence codes) of the targets *)
Definition same_but_policy (n n' : node) : Prop :=
  (n_scale n, n_zp n, n_og_scale n, n_og_zp n, n_q n, n_hooks n) = (n_scale n', n_zp n', n_og_scale n', n_og_zp n', n_q n', n_hooks n') /\
  option_map (fun t => (t_fp t, t_og_policy t)) (n_tens n) = option_map (fun t => (t_fp t, t_og_policy t)) (n_tens n') /\
  option_map (fun l => lut_set_policy l (nd_of_pt (mkpt [] []))) (n_lut n) = option_map (fun l => lut_set_policy l (nd_of_pt (mkpt [] []))) (n_lut n').
Lemma sbp_refl n : same_but_policy n n. Proof. repeat split. Qed.
Lemma sbp_trans a b c : same_but_policy a b -> same_but_policy b c -> same_but_policy a c.
Proof. intros (A & B & C) (A' & B' & C'). split; [congruence|]. split; congruence. Qed.
Lemma sbp_sym a b : same_but_policy a b -> same_but_policy b a.
Proof. intros (A & B & C). split; [congruence|]. split; congruence. Qed.

Lemma set_target_frame w t p w' : set_target w t p = Ok w' -> forall j, same_but_policy (w j) (w' j).
Proof.
  intros E j. destruct t as [i|i]; cbn [set_target] in E.
  - unfold set_policy in E. destruct (n_tens (w i)) as [x|] eqn:T; [|discriminate]. destruct (shape_eqb _ _); [|discriminate]. cbn [rbind] in E.
    match type of E with Ok ?m = _ => assert (w' = m) by congruence end. subst w'. unfold upd. destruct (Nat.eqb_spec j i) as [-> | N]; [|apply sbp_refl].
    split; [reflexivity|]. split; [cbn; now rewrite T|reflexivity].
  - destruct (n_lut (w i)) as [l|] eqn:T; [|discriminate].
    match type of E with Ok ?m = _ => assert (w' = m) by congruence end. subst w'. unfold upd. destruct (Nat.eqb_spec j i) as [-> | N]; [|apply sbp_refl].
    split; [reflexivity|]. split; [reflexivity|]. cbn. rewrite T. reflexivity.
Qed.
Lemma set_targets_frame : forall ts w ps w', set_targets w ts ps = Ok w' -> forall j, same_but_policy (w j) (w' j).
Proof.
  induction ts as [|t ts IH]; intros w ps w' E j; cbn [set_targets] in E; [assert (w' = w) by congruence; subst; apply sbp_refl|].
  destruct ps as [|p ps]; [assert (w' = w) by congruence; subst; apply sbp_refl|].
  destruct (set_target w t p) as [w1|] eqn:E1; [|discriminate]. cbn [rbind] in E. eapply sbp_trans; [eapply set_target_frame; exact E1|eapply IH; exact E].
Qed.
Lemma shape_eqb_true a b : shape_eqb a b = true <-> a = b.
Proof. unfold shape_eqb. destruct (list_eq_dec _ a b); split; congruence. Qed.
Lemma set_target_total w t p : target_ok w t p -> exists w', set_target w t p = Ok w'.
Proof.
  destruct t as [i|i]; cbn [target_ok set_target].
  - intros (x & T & S1). unfold set_policy. rewrite T. cbn [nd_of_pt nd_shape].
    assert (shape_eqb (pt_shape p) (nd_shape (t_fp x)) = true) as -> by now apply shape_eqb_true. cbn [rbind]. eauto.
  - intros H. destruct (n_lut (w i)); [eauto|congruence].
Qed.
Lemma target_ok_frame w w' t p : (forall j, same_but_policy (w j) (w' j)) -> target_ok w t p -> target_ok w' t p.
Proof.
  intros F. destruct t as [i|i]; cbn [target_ok]; destruct (F i) as (_ & B & C).
  - intros (x & T & S1). rewrite T in B. cbn in B. destruct (n_tens (w' i)) as [y|]; [|discriminate]. cbn in B. exists y. split; [reflexivity|]. congruence.
  - intros H N. rewrite N in C. destruct (n_lut (w i)); [discriminate|congruence].
Qed.
Lemma set_targets_total : forall ts ps w, Forall2 (target_ok w) ts ps -> exists w', set_targets w ts ps = Ok w'.
Proof.
  induction ts as [|t ts IH]; intros ps w F; [exists w; destruct ps; reflexivity|]. inversion F as [|? p ? ps' A B]; subst. cbn [set_targets].
  destruct (set_target_total _ _ _ A) as (w1 & E). rewrite E. cbn [rbind]. apply IH. eapply Forall2_weaken; [|exact B]. intros a b H.
  eapply target_ok_frame; [|exact H]. eapply set_target_frame; exact E.
Qed.

(** what a node shows after the policies have been assigned depends only on the frame and on the assigned policies *)
Lemma mknode_ext n n' : n_scale n = n_scale n' -> n_zp n = n_zp n' -> n_og_scale n = n_og_scale n' -> n_og_zp n = n_og_zp n' -> n_q n = n_q n' ->
  n_tens n = n_tens n' -> n_lut n = n_lut n' -> n_hooks n = n_hooks n' -> n = n'.
Proof. destruct n, n'. cbn. intros. subst. reflexivity. Qed.
Definition part (t : target) (w : world) : option tens + option lut :=
  match t with TNode i => inl (n_tens (w i)) | TLut i => inr (n_lut (w i)) end.
Lemma set_target_part w w' t p w1 w1' : (forall j, same_but_policy (w j) (w' j)) -> set_target w t p = Ok w1 -> set_target w' t p = Ok w1' -> part t w1 = part t w1'.
Proof.
  intros F E E'. destruct t as [i|i]; cbn [set_target part] in *; destruct (F i) as (A & B & C).
  - unfold set_policy in E, E'. destruct (n_tens (w i)) as [x|] eqn:T; [|discriminate]. destruct (n_tens (w' i)) as [x'|] eqn:T'; [|discriminate].
    destruct (shape_eqb (nd_shape (nd_of_pt p)) (nd_shape (t_fp x))); [|discriminate]. destruct (shape_eqb (nd_shape (nd_of_pt p)) (nd_shape (t_fp x'))); [|discriminate].
    cbn [rbind] in *. match type of E with Ok ?m = _ => assert (w1 = m) by congruence end. match type of E' with Ok ?m = _ => assert (w1' = m) by congruence end.
    subst w1 w1'. unfold upd. rewrite Nat.eqb_refl. cbn [set_tens n_tens]. cbn in B. assert (t_fp x = t_fp x') as -> by congruence. assert (t_og_policy x = t_og_policy x') as -> by congruence.
    assert (n_q (w i) = n_q (w' i)) as -> by congruence. assert (n_zp (w i) = n_zp (w' i)) as -> by congruence. assert (n_scale (w i) = n_scale (w' i)) as -> by congruence. reflexivity.
  - destruct (n_lut (w i)) as [l|] eqn:T; [|discriminate]. destruct (n_lut (w' i)) as [l'|] eqn:T'; [|discriminate].
    match type of E with Ok ?m = _ => assert (w1 = m) by congruence end. match type of E' with Ok ?m = _ => assert (w1' = m) by congruence end.
    subst w1 w1'. unfold upd. rewrite Nat.eqb_refl. cbn [set_lut n_lut]. cbn [option_map] in C. set (z := nd_of_pt (mkpt [] [])) in *.
    assert (C0 : lut_set_policy l z = lut_set_policy l' z) by congruence. do 2 f_equal.
    change (lut_set_policy (lut_set_policy l z) (nd_of_pt p) = lut_set_policy (lut_set_policy l' z) (nd_of_pt p)). now rewrite C0.
Qed.
Lemma set_target_other w t u p w1 : set_target w t p = Ok w1 -> t <> u -> part u w1 = part u w.
Proof.
  intros E N. destruct t as [i|i]; cbn [set_target] in E.
  - destruct (set_policy (w i) (nd_of_pt p)) as [n|] eqn:E1; [|discriminate]. cbn [rbind] in E.
    match type of E with Ok ?m = _ => assert (w1 = m) by congruence end. subst w1. destruct u as [j|j]; cbn [part]; unfold upd; destruct (Nat.eqb_spec j i) as [-> | M]; try congruence.
    unfold set_policy in E1. destruct (n_tens (w i)); [|discriminate]. destruct (shape_eqb _ _); [|discriminate].
    match type of E1 with Ok ?m = _ => assert (n = m) by congruence end. now subst n.
  - destruct (n_lut (w i)) as [l|] eqn:E1; [|discriminate].
    match type of E with Ok ?m = _ => assert (w1 = m) by congruence end. subst w1. destruct u as [j|j]; cbn [part]; unfold upd; destruct (Nat.eqb_spec j i) as [-> | M]; try congruence. reflexivity.
Qed.
Lemma set_targets_other : forall ts u w ps w1, set_targets w ts ps = Ok w1 -> ~ In u ts -> part u w1 = part u w.
Proof.
  induction ts as [|t ts IH]; intros u w ps w1 E N; cbn [set_targets] in E; [assert (w1 = w) by congruence; now subst|].
  destruct ps as [|p ps]; [assert (w1 = w) by congruence; now subst|].
  destruct (set_target w t p) as [w2|] eqn:E1; [|discriminate]. cbn [rbind] in E. rewrite (IH _ _ _ _ E) by (intros I; apply N; now right).
  apply (set_target_other _ _ _ _ _ E1). intros ->. apply N. now left.
Qed.
Lemma set_targets_part : forall ts ps w w' w1 w1', NoDup ts -> length ps = length ts -> (forall j, same_but_policy (w j) (w' j)) ->
  set_targets w ts ps = Ok w1 -> set_targets w' ts ps = Ok w1' -> forall t, In t ts -> part t w1 = part t w1'.
Proof.
  induction ts as [|t ts IH]; intros ps w w' w1 w1' ND LE F E E' u I; [destruct I|]. destruct ps as [|p ps]; [discriminate|]. cbn [set_targets] in *.
  destruct (set_target w t p) as [w2|] eqn:E1; [|discriminate]. destruct (set_target w' t p) as [w2'|] eqn:E1'; [|discriminate]. cbn [rbind] in *.
  inversion ND as [|? ? N ND']; subst. destruct I as [<- | I].
  - rewrite (set_targets_other _ _ _ _ _ E N), (set_targets_other _ _ _ _ _ E' N). eapply set_target_part; [exact F|exact E1|exact E1'].
  - apply (IH ps w2 w2' w1 w1'); auto. intros j. eapply sbp_trans; [apply sbp_sym; eapply set_target_frame; exact E1|]. eapply sbp_trans; [apply F|eapply set_target_frame; exact E1'].
Qed.

(** Assigning policies overwrites: whatever was assigned before (the annealer's trials), the network is the one the
    assigned policies alone determine. *)
Theorem C37_assignment_overwrites : forall ts w0 ps qs w1 w2 w2', NoDup ts -> length qs = length ts ->
  set_targets w0 ts ps = Ok w1 -> set_targets w1 ts qs = Ok w2 -> set_targets w0 ts qs = Ok w2' -> forall j, w2 j = w2' j.
Proof.
  intros ts w0 ps qs w1 w2 w2' ND LE E1 E2 E3 j.
  assert (F : forall j, same_but_policy (w1 j) (w0 j)) by (intros k; apply sbp_sym; eapply set_targets_frame; exact E1).
  assert (X : forall t, part t w2 = part t w2').
  { intros t. assert (D : In t ts \/ ~ In t ts). { destruct (in_dec (fun a b : target => ltac:(decide equality; apply Nat.eq_dec)) t ts); auto. }
    destruct D as [I|I]; [eapply set_targets_part; [exact ND|exact LE|exact F|exact E2|exact E3|exact I]|].
    rewrite (set_targets_other _ _ _ _ _ E2 I), (set_targets_other _ _ _ _ _ E3 I). apply (set_targets_other _ _ _ _ _ E1 I). }
  assert (A := set_targets_frame _ _ _ _ E2 j). assert (B := set_targets_frame _ _ _ _ E3 j). assert (C := sbp_trans _ _ _ (sbp_trans _ _ _ (sbp_sym _ _ A) (F j)) B).
  destruct C as (C1 & _). assert (X1 := X (TNode j)). assert (X2 := X (TLut j)). cbn [part] in X1, X2. apply mknode_ext; congruence.
Qed.

(** AdaRound.round: the trial energies are the loss of the network with the trial policies; after the final assignment
    the network's loss is exactly the energy the optimizer reported, so it is no worse than at the start (unless a
    trial network had loss 0). *)
Definition trial (w0 : world) (ts : list target) (cost : world -> Q) (ps : pstate) : Q :=
  match set_targets w0 ts ps with Ok w => cost w | Err _ => 0%Q end.
Lemma reach_frame s s' : Forall proper s -> reach s s' -> Forall2 (fun t t' => pt_shape t' = pt_shape t) s s' /\ Forall proper s'.
Proof.
  intros P (n & M). assert (X := C36_any_number_of_moves n s s' P M). split.
  - eapply Forall2_weaken; [|exact X]. cbv beta. tauto.
  - eapply Forall2_right; [|exact X]. cbv beta. tauto.
Qed.
Lemma Forall2_length {A B} (R : A -> B -> Prop) l l' : Forall2 R l l' -> length l = length l'.
Proof. induction 1; cbn; congruence. Qed.
Lemma target_ok_reach w ts s s' : Forall2 (target_ok w) ts s -> Forall2 (fun t t' => pt_shape t' = pt_shape t) s s' -> Forall2 (target_ok w) ts s'.
Proof.
  intros F. revert s'. induction F as [|t p ts s H F IH]; intros s' G; inversion G; subst; constructor; auto.
  destruct t as [i|i]; cbn [target_ok] in *; [|exact H]. destruct H as (x & T & S1). exists x. split; [exact T|congruence].
Qed.
Theorem C37_adaround_never_worse : forall w0 ts cost steps max turns rs rs' acc s0 ps b e w1 w2 wi,
  NoDup ts -> Forall proper s0 -> Forall2 (target_ok w0) ts s0 ->
  (forall w w', (forall j, w j = w' j) -> (cost w == cost w')%Q) ->
  (forall s, reach s0 s -> ~ (trial w0 ts cost s == 0)%Q) ->
  set_targets w0 ts s0 = Ok wi ->
  anneal (trial w0 ts cost) steps max turns rs rs' acc s0 = Ok (Some (b, e)) ->
  set_targets w0 ts ps = Ok w1 -> (* the last trial *)
  set_targets w1 ts b = Ok w2 -> (cost w2 == e)%Q /\ (cost w2 <= cost wi)%Q.
Proof.
  intros w0 ts cost steps max turns rs rs' acc s0 ps b e w1 w2 wi ND P OK EXT NZ EI EA E1 E2.
  destruct (C37_anneal_never_worse _ _ _ _ _ _ _ _ _ _ NZ EA) as (R & -> & LE).
  destruct (reach_frame _ _ P R) as (FR & _). assert (OKB := target_ok_reach _ _ _ _ OK FR).
  destruct (set_targets_total _ _ _ OKB) as (w2' & E3). assert (LEN : length b = length ts) by (symmetry; eapply Forall2_length; exact OKB).
  assert (EQ := C37_assignment_overwrites ts w0 ps b w1 w2 w2' ND LEN E1 E2 E3). apply EXT in EQ.
  unfold trial in *. rewrite E3, EI in *. split; [exact EQ|]. lra.
Qed.
(** Assigning a policy to a LUT changes nothing that is exported: its table is not rebuilt. *)
Theorem C37_lut_rounding_has_no_effect : forall w i p w', set_target w (TLut i) p = Ok w' -> forall j, same_export (w j) (w' j).
Proof.
  intros w i p w' E j. cbn [set_target] in E. destruct (n_lut (w i)) as [l|] eqn:T; [|discriminate].
  match type of E with Ok ?m = _ => assert (w' = m) by congruence end. subst w'. unfold upd. destruct (Nat.eqb_spec j i) as [-> | N].
  - split; [reflexivity|]. split; [reflexivity|]. split; [reflexivity|]. split; [cbn [set_lut n_tens]; destruct (n_tens (w i)); [split; [reflexivity|intros; reflexivity]|exact Logic.I]|].
    cbn [set_lut n_lut]. rewrite T. reflexivity.
  - split; [reflexivity|]. split; [reflexivity|]. split; [reflexivity|]. split; [destruct (n_tens (w j)); [split; [reflexivity|intros; reflexivity]|exact Logic.I]|]. reflexivity.
Qed.
Definition ex_w : world := fun i => match i with
  | O => with_tensor (node_new (1#2) 0 int8) (mknd [2%nat; 3%nat] (fun i => (inject_Z (Z.of_nat (flat_index [2%nat; 3%nat] i)) / 3)%Q))
  | S O => with_tensor (node_new (1#4) 0 int32) (nd_of_list 0%Q [(3#8)%Q; (1#3)%Q])
  | _ => with_lut (node_new (1#4) 0 int8) (fun x => (x / 2)%Q) (1#4) 0 end.
Example C37_example : NoDup [TNode 0; TNode 1] /\ Forall2 (target_ok ex_w) [TNode 0; TNode 1] [ex_kernel; ex_bias] /\
  (exists w1, set_targets ex_w [TNode 0; TNode 1] [ex_kernel; ex_bias] = Ok w1 /\ codes (w1 1%nat) = [2; 1]) /\
  exists b e, to_minima (fun s => match s with t :: _ => inject_Z (1 + sumZ (pt_flat t)) | [] => 1%Q end) 3 20 (fun k _ => k) [ex_kernel; ex_bias] [ex_kernel; ex_bias] 10 = Ok (Some (b, e)) /\ (e == 3)%Q.
Proof.
  split; [repeat constructor; cbn; intuition discriminate|]. split; [|split].
  - constructor; [eexists; split; reflexivity|]. constructor; [eexists; split; reflexivity|]. constructor.
  - eexists. split; [reflexivity|]. vm_compute. reflexivity.
  - eexists _, _. split; [vm_compute; reflexivity|]. reflexivity.
Qed.
