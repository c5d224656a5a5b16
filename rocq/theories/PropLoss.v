(** Property C82: what the loss functions of the quantization scripts say about the quantized network - classification accuracy and mean
    squared error of a file against those of the float network it was made from. *)
From Verif Require Import Base BaseProofs DtypeModel QuantModel LutModel FcModel FcLayer EngineModel EngineProofs DistModel BuildModel PipeModel PropCore PropFc PropRelu PropDist
  PipeSpec RPipeSpec CertSpec PropPipe PropRPipe PropCert NodeModel EqModel AnnealModel ExportModel ExportSpec PropExport TuneModel PropTune LossModel.
From Coq Require Import Lqa Qminmax.
Open Scope Z_scope.
Open Scope list_scope.

(** ** Specification *)
(** class [k] has the largest score of [y], strictly larger than the classes before it *)
Definition top_class (y : list Q) (k : nat) : Prop :=
  (k < length y)%nat /\ forall i, (i < length y)%nat -> (nth i y 0 <= nth k y 0)%Q /\ ((i < k)%nat -> (nth i y 0 < nth k y 0)%Q).
(** class [k] wins by more than [m] *)
Definition decided (m : Q) (y : list Q) (k : nat) : Prop :=
  (k < length y)%nat /\ forall i, (i < length y)%nat -> i <> k -> (nth i y 0 + m < nth k y 0)%Q.
Definition decidedb (m : Q) (y : list Q) (k : nat) : bool :=
  (k <? length y)%nat && forallb (fun i => (i =? k)%nat || negb (Qle_bool (nth k y 0) (nth i y 0 + m))%Q) (seq 0 (length y)).
(** number of elements satisfying a test *)
Definition count {A} (p : A -> bool) (l : list A) : nat := length (filter p l).
(** the float network decides for class [k] on [x] by more than twice the certified error of the file *)
Definition sure (L D : kdense -> Q) (ls : list kdense) (qop : jop pbody) (ops : list (jop pbody)) (x : list Q) (k : nat) : bool :=
  decidedb (2 * cert L D ls ops x (input_err qop x))%Q (net_out ls x) k.
Definition sure_other (L D : kdense -> Q) (ls : list kdense) (qop : jop pbody) (ops : list (jop pbody)) (x : list Q) (k : nat) : bool :=
  existsb (fun k' => negb (k' =? k)%nat && sure L D ls qop ops x k') (seq 0 (length (net_out ls x))).
(** mean of the squared differences, entry by entry *)
Definition sq_err (y t : list Q) : Q := sumQ (map (fun p => (fst p - snd p) * (fst p - snd p))%Q (combine y t)).
Definition entries (m : list (list Q)) : nat := length (concat m).
Definition mean_sq_err (Y T : list (list Q)) : Q := (sumQ (map (fun p => sq_err (fst p) (snd p)) (combine Y T)) / inject_Z (Z.of_nat (entries T)))%Q.
Definition mean (l : list Q) : Q := (sumQ l / inject_Z (Z.of_nat (length l)))%Q.

(** ** Argmax *)
Lemma argmax_from_spec : forall l best bi i, (bi < i)%nat -> let k := argmax_from best bi i l in
  (k = bi /\ forall x, In x l -> (x <= best)%Q) \/
  ((i <= k)%nat /\ (k - i < length l)%nat /\ (best < nth (k - i) l 0)%Q /\
   forall t, (t < length l)%nat -> (nth t l 0 <= nth (k - i) l 0)%Q /\ ((t < k - i)%nat -> (nth t l 0 < nth (k - i) l 0)%Q)).
Proof.
  induction l as [|x l IH]; intros best bi i H; cbn [argmax_from]; [left; split; [reflexivity|intros x []]|].
  destruct (Qle_bool x best) eqn:E.
  - apply Qle_bool_iff in E. destruct (IH best bi (S i) ltac:(lia)) as [[A B]|(A & B & C & D)]; set (k := argmax_from best bi (S i) l) in *; cbv zeta in *.
    + left. split; [exact A|]. intros y [<-|Hy]; [exact E|now apply B].
    + right. assert (K : (k - i = S (k - S i))%nat) by lia. rewrite K. cbn [nth length]. split; [lia|]. split; [lia|]. split; [exact C|].
      intros [|t] Ht; cbn [nth]; [split; [lra|intros _; lra]|]. destruct (D t ltac:(cbn in Ht; lia)) as [D1 D2]. split; [exact D1|]. intros Q1. apply D2. lia.
  - assert (E' : (best < x)%Q). { apply Qnot_le_lt. intros F. apply Qle_bool_iff in F. congruence. }
    destruct (IH x i (S i) ltac:(lia)) as [[A B]|(A & B & C & D)]; set (k := argmax_from x i (S i) l) in *; cbv zeta in *.
    + right. rewrite A. rewrite Nat.sub_diag. cbn [nth length]. split; [lia|]. split; [lia|]. split; [exact E'|].
      intros [|t] Ht; cbn [nth]; (split; [|intros F; lia]); [lra|]. apply B. apply nth_In. cbn in Ht. lia.
    + right. assert (K : (k - i = S (k - S i))%nat) by lia. rewrite K. cbn [nth length]. split; [lia|]. split; [lia|]. split; [lra|].
      intros [|t] Ht; cbn [nth]; [split; [lra|intros _; lra]|]. destruct (D t ltac:(cbn in Ht; lia)) as [D1 D2]. split; [exact D1|]. intros Q1. apply D2. lia.
Qed.
Lemma top_unique y k k' : top_class y k -> top_class y k' -> k = k'.
Proof.
  intros [A B] [A' B']. destruct (Nat.lt_trichotomy k k') as [H|[H|H]]; [|exact H|].
  - destruct (B' k A) as [_ X]. specialize (X H). destruct (B k' A') as [Y _]. lra.
  - destruct (B k' A') as [_ X]. specialize (X H). destruct (B' k A) as [Y _]. lra.
Qed.
Theorem C82_argmax : forall y k, np_argmax y = Ok k <-> top_class y k.
Proof.
  assert (F : forall y k, np_argmax y = Ok k -> top_class y k).
  { intros [|x l] k H; [discriminate|]. cbn [np_argmax] in H. assert (E : argmax_from x 0 1 l = k) by congruence. clear H.
    destruct (argmax_from_spec l x 0 1 ltac:(lia)) as [[A B]|(A & B & C & D)]; rewrite E in *.
    - subst k. rewrite A. split; [cbn; lia|]. intros [|i] Hi; cbn [nth]; (split; [|intros G; lia]); [lra|]. apply B, nth_In. cbn in Hi. lia.
    - destruct k as [|k]; [lia|]. cbn [Nat.sub] in *. rewrite Nat.sub_0_r in *. split; [cbn; lia|]. intros [|i] Hi; cbn [nth]; [split; [lra|intros _; lra]|].
      destruct (D i ltac:(cbn in Hi; lia)) as [D1 D2]. split; [exact D1|]. intros G. apply D2. lia. }
  intros y k. split; [apply F|]. intros T. destruct y as [|x l]; [destruct T as [T _]; cbn in T; lia|].
  cbn [np_argmax]. f_equal. apply (top_unique (x :: l)); [|exact T]. apply F. reflexivity.
Qed.
Lemma decidedb_ok m y k : decidedb m y k = true <-> decided m y k.
Proof.
  unfold decidedb, decided. rewrite andb_true_iff, Nat.ltb_lt, forallb_forall. split; intros [A B]; (split; [exact A|]).
  - intros i Hi N. specialize (B i ltac:(apply in_seq; lia)). apply orb_true_iff in B. destruct B as [B|B]; [apply Nat.eqb_eq in B; contradiction|].
    apply negb_true_iff in B. apply Qnot_le_lt. intros G. apply Qle_bool_iff in G. congruence.
  - intros i Hi. apply in_seq in Hi. destruct (Nat.eqb_spec i k) as [|N]; [reflexivity|]. cbn [orb]. apply negb_true_iff. specialize (B i ltac:(lia) N).
    destruct (Qle_bool _ _) eqn:G; [|reflexivity]. apply Qle_bool_iff in G. lra.
Qed.
(** Scores known up to [e] give the class of the exact scores whenever it wins by more than 2 e. *)
Theorem C82_prediction : forall e y z k, within e y z -> decided (2 * e) z k -> np_argmax y = Ok k.
Proof.
  intros e y z k [Len W] [A B]. apply C82_argmax. split; [lia|]. intros i Hi. rewrite Len in Hi.
  assert (Wk := W k A). apply Qabs_Qle_condition in Wk. destruct (Nat.eq_dec i k) as [->|N]; [split; [lra|lia]|].
  assert (Wi := W i Hi). apply Qabs_Qle_condition in Wi. specialize (B i Hi N). split; [lra|intros _; lra].
Qed.
(** A last softmax does not change the class: any function of the scores that keeps their order gives the same prediction. *)
Theorem C82_softmax : forall (g : list Q -> list Q) y, length (g y) = length y ->
  (forall i k, (i < length y)%nat -> (k < length y)%nat -> (nth i y 0 < nth k y 0)%Q <-> (nth i (g y) 0 < nth k (g y) 0)%Q) ->
  np_argmax (g y) = np_argmax y.
Proof.
  intros g y Len M. destruct (np_argmax y) as [k|e] eqn:E.
  - apply C82_argmax in E. apply C82_argmax. destruct E as [A B]. split; [lia|]. intros i Hi. rewrite Len in Hi. destruct (B i Hi) as [B1 B2]. split.
    + apply Qnot_lt_le. intros C. apply (M k i A Hi) in C. lra.
    + intros C. apply (M i k Hi A). now apply B2.
  - destruct y as [|x l]; [|discriminate]. destruct (g []) as [|z r]; [exact E|discriminate].
Qed.

(** ** Hits *)
Lemma hits_bounds (P Q0 : list Q -> nat -> bool) : forall xs ps es,
  Forall2 (fun x p => (forall k, P x k = true -> p = k) /\ (forall k, Q0 x k = true -> p <> k)) xs ps ->
  (count (fun t => P (fst t) (snd t)) (combine xs es) <= count_hits ps es)%nat /\
  (count_hits ps es + count (fun t => Q0 (fst t) (snd t)) (combine xs es) <= length (combine xs es))%nat.
Proof.
  unfold count. intros xs ps es F. revert es. induction F as [|x p xs ps [A B] F IH]; intros [|e es]; cbn [combine filter count_hits length]; try lia.
  destruct (IH es) as [I1 I2]. cbn [fst snd]. destruct (P x e) eqn:E1, (Q0 x e) eqn:E2; cbn [length]; destruct (Nat.eqb_spec p e) as [N|N]; first [lia|exfalso; apply N, A; exact E1|exfalso; exact (B e E2 N)].
Qed.
Lemma net_out_pos : forall ls n x, shaped n ls -> (0 < n)%nat -> length x = n -> (0 < length (net_out ls x))%nat.
Proof.
  induction ls as [|l ls IH]; intros n x Sh H Lx; [cbn; lia|]. change (net_out (l :: ls) x) with (net_out ls (layer_out l x)).
  destruct Sh as (_ & Hu & _ & _ & _ & Sh). apply (IH (kd_units l)); [exact Sh|exact Hu|]. unfold layer_out, affine. now rewrite !map_length, seq_length.
Qed.
Lemma outputs_ok j net batch v : pipe_load j = Ok net -> pipe_infer net batch = v -> outputs j batch = v.
Proof. intros E F. unfold outputs. rewrite E. cbn [rbind]. exact F. Qed.

(** The number of hits of a file on a test set: at least the number of samples that the float network classifies correctly by more than
    twice the certified error, at most all the samples but those that it assigns to another class by more than that. *)
Theorem C82_hits : forall ls n L D j qop ops out xs ys, dense_file ls n j qop ops out ->
  (forall l, In l ls -> is_table l = true -> lipschitz L D l) -> xs <> [] -> (forall x, In x xs -> length x = n) ->
  exists h, hits_of (outputs j xs) ys = Ok h /\
    (count (fun t => sure L D ls qop ops (fst t) (snd t)) (combine xs ys) <= h)%nat /\
    (h + count (fun t => sure_other L D ls qop ops (fst t) (snd t)) (combine xs ys) <= length (combine xs ys))%nat.
Proof.
  intros ls n L D j qop ops out xs ys DF LIP NE LX. destruct (C79_certificate ls n L D j qop ops out DF LIP) as (net & EL & R).
  destruct (R xs NE LX) as (Y & EY & F). unfold hits_of. rewrite (outputs_ok j net xs _ EL EY). cbn [rbind asF].
  assert (G : exists ps, predictions Y = Ok ps /\ Forall2 (fun x p => (forall k, sure L D ls qop ops x k = true -> p = k) /\
      (forall k, sure_other L D ls qop ops x k = true -> p <> k)) xs ps).
  { unfold predictions. destruct DF as [Hn Sh _ _ _ _ _]. clear EY R NE. induction F as [|x y xs Y W F IH]; [exists []; split; [reflexivity|constructor]|].
    destruct IH as (ps & EP & FP); [intros z Hz; apply LX; now right|].
    assert (P0 : (0 < length (net_out ls x))%nat) by (apply (net_out_pos ls n); [exact Sh|exact Hn|apply LX; now left]).
    destruct (np_argmax y) as [p|e] eqn:EA; [|exfalso; destruct W as [W _]; destruct y; [cbn in W; lia|discriminate EA]].
    exists (p :: ps). split; [cbn [mapM]; rewrite EA; cbn [rbind]; rewrite EP; reflexivity|]. constructor; [|exact FP].
    assert (S0 : forall k, sure L D ls qop ops x k = true -> p = k).
    { intros k H. apply decidedb_ok in H. assert (Z := C82_prediction _ y (net_out ls x) k W H). congruence. }
    split; [exact S0|]. intros k H E. apply existsb_exists in H as (k' & _ & H). apply andb_true_iff in H as [H1 H2].
    apply negb_true_iff, Nat.eqb_neq in H1. apply H1. rewrite <- E. symmetry. now apply S0. }
  destruct G as (ps & EP & FP). rewrite EP. cbn [rbind]. exists (count_hits ps ys). split; [reflexivity|].
  exact (hits_bounds (sure L D ls qop ops) (sure_other L D ls qop ops) xs ps ys FP).
Qed.

(** ** Mean squared error *)
Lemma sumQ_le : forall l l', Forall2 Qle l l' -> (sumQ l <= sumQ l')%Q.
Proof. induction 1 as [|a b l l' H F IH]; [apply Qle_refl|]. change (a + sumQ l <= b + sumQ l')%Q. lra. Qed.
Lemma sumQ_eq : forall l l', Forall2 Qeq l l' -> (sumQ l == sumQ l')%Q.
Proof. induction 1 as [|a b l l' H F IH]; [reflexivity|]. change (a + sumQ l == b + sumQ l')%Q. lra. Qed.
Lemma map_seq_nth {A} (f : A -> Q) (d : A) : forall l, map (fun i => f (nth i l d)) (seq 0 (length l)) = map f l.
Proof.
  induction l as [|a l IH]; [reflexivity|]. cbn [length seq map nth]. f_equal. rewrite <- seq_shift, map_map. cbn [nth]. exact IH.
Qed.
Lemma map_seq_ext (f g : nat -> Q) n : (forall i, (i < n)%nat -> f i = g i) -> map f (seq 0 n) = map g (seq 0 n).
Proof. intros H. apply map_ext_in. intros i Hi. apply in_seq in Hi. apply H. lia. Qed.
(** arrays of the same shape (n rows of k entries) *)
Definition shape2 (n k : nat) (m : list (list Q)) : Prop := length m = n /\ forall r, In r m -> length r = k.
Lemma bc_get_plain n k m i j : shape2 n k m -> (i < n)%nat -> (j < k)%nat -> bc_get m i j = nth j (nth i m []) 0%Q.
Proof.
  intros [A B] Hi Hj. unfold bc_get, rows_of, cols_of. rewrite A.
  assert (C : length (hd [] m) = k) by (destruct m as [|r m]; [cbn in A; lia|apply B; now left]). rewrite C.
  destruct (Nat.eqb_spec k 1), (Nat.eqb_spec n 1); repeat f_equal; lia.
Qed.
Lemma entries_shape n k m : shape2 n k m -> entries m = (n * k)%nat.
Proof.
  unfold entries. intros [<- B]. induction m as [|r m IH]; [reflexivity|]. cbn [concat length]. rewrite app_length, (B r (or_introl eq_refl)), IH; [lia|].
  intros z Hz. apply B. now right.
Qed.

Lemma pairs_seq (F : list Q -> list Q -> Q) : forall Y T, length Y = length T ->
  map (fun i => F (nth i Y []) (nth i T [])) (seq 0 (length T)) = map (fun p => F (fst p) (snd p)) (combine Y T).
Proof.
  intros Y T E. rewrite <- (map_seq_nth (fun p => F (fst p) (snd p)) ([], []) (combine Y T)).
  rewrite combine_length, E, Nat.min_id. apply map_ext. intros i. now rewrite combine_nth by exact E.
Qed.
Lemma pairs_seq1 (F : Q -> Q -> Q) : forall y t, length y = length t ->
  map (fun i => F (nth i y 0%Q) (nth i t 0%Q)) (seq 0 (length t)) = map (fun p => F (fst p) (snd p)) (combine y t).
Proof.
  intros Y T E. rewrite <- (map_seq_nth (fun p => F (fst p) (snd p)) (0%Q, 0%Q) (combine Y T)).
  rewrite combine_length, E, Nat.min_id. apply map_ext. intros i. now rewrite combine_nth by exact E.
Qed.
Lemma np_mse_plain n k Y T : shape2 n k Y -> shape2 n k T -> (0 < n)%nat -> (0 < k)%nat -> np_mse Y T = Ok (mean_sq_err Y T).
Proof.
  intros SY ST Hn Hk. unfold np_mse. pose proof SY as [LY RY]. pose proof ST as [LT RT].
  assert (CY : cols_of Y = k) by (unfold cols_of; destruct Y as [|r Y]; [cbn in LY; lia|apply RY; now left]).
  assert (CT : cols_of T = k) by (unfold cols_of; destruct T as [|r T]; [cbn in LT; lia|apply RT; now left]).
  unfold rows_of. rewrite LY, LT, CY, CT. unfold bc_dim. rewrite !Nat.eqb_refl. cbn [rbind].
  destruct (Nat.eqb_spec (n * k) 0) as [E|_]; [nia|]. f_equal. unfold mean_sq_err. rewrite (entries_shape n k T ST). f_equal. f_equal.
  rewrite <- (pairs_seq sq_err Y T ltac:(lia)), LT. apply map_seq_ext. intros i Hi. unfold sq_err.
  assert (IY : length (nth i Y []) = k) by (apply RY, nth_In; lia). assert (IT : length (nth i T []) = k) by (apply RT, nth_In; lia).
  rewrite <- (pairs_seq1 (fun a b => (a - b) * (a - b))%Q _ _ (eq_trans IY (eq_sym IT))), IT. f_equal. apply map_seq_ext. intros t Ht.
  rewrite (bc_get_plain n k Y i t SY Hi Ht), (bc_get_plain n k T i t ST Hi Ht). reflexivity.
Qed.
Lemma within_all e : forall y z, within e y z -> Forall2 (fun a b => (Qabs (a - b) <= e)%Q) y z.
Proof.
  induction y as [|a y IH]; intros [|b z] [L W]; try discriminate L; constructor.
  - exact (W 0%nat ltac:(cbn; lia)).
  - apply IH. split; [cbn in L; congruence|]. intros i Hi. exact (W (S i) ltac:(cbn; lia)).
Qed.
(** how much the squared error of a sample can change when its outputs [z] move by at most [e] *)
Definition sq_slack (e : Q) (z t : list Q) : Q := sumQ (map (fun p => e * (2 * Qabs (fst p - snd p) + e))%Q (combine z t)).
Lemma sq_err_close e : forall y z t, Forall2 (fun a b => (Qabs (a - b) <= e)%Q) y z -> (Qabs (sq_err y t - sq_err z t) <= sq_slack e z t)%Q.
Proof.
  intros y z t F. revert t. induction F as [|a b y z H F IH]; intros [|c t]; try (cbn; discriminate).
  specialize (IH t). change (sq_err (a :: y) (c :: t)) with ((a - c) * (a - c) + sq_err y t)%Q. change (sq_err (b :: z) (c :: t)) with ((b - c) * (b - c) + sq_err z t)%Q.
  change (sq_slack e (b :: z) (c :: t)) with (e * (2 * Qabs (b - c) + e) + sq_slack e z t)%Q.
  assert (K : (Qabs ((a - c) * (a - c) - (b - c) * (b - c)) <= e * (2 * Qabs (b - c) + e))%Q).
  { setoid_replace ((a - c) * (a - c) - (b - c) * (b - c))%Q with ((a - b) * (2 * (b - c) + (a - b)))%Q by ring. rewrite Qabs_Qmult.
    assert (E0 := Qabs_nonneg (a - b)). assert (T := Qabs_triangle (2 * (b - c)) (a - b)). rewrite Qabs_Qmult in T. change (Qabs 2) with 2%Q in T.
    assert (N0 := Qabs_nonneg (2 * (b - c) + (a - b))).
    apply Qle_trans with (e * Qabs (2 * (b - c) + (a - b)))%Q; [apply Qmult_le_compat_r; assumption|].
    rewrite !(Qmult_comm e). apply Qmult_le_compat_r; lra. }
  apply Qabs_Qle_condition in K. apply Qabs_Qle_condition in IH. apply Qabs_Qle_condition. lra.
Qed.

Lemma net_out_shape ls n k xs : (forall x, In x xs -> length (net_out ls x) = k) -> length xs = n -> shape2 n k (map (net_out ls) xs).
Proof. intros H <-. split; [apply map_length|]. intros r Hr. apply in_map_iff in Hr as (x & <- & Hx). now apply H. Qed.
(** The mean squared error of a file against any targets differs from that of the float network by at most an explicit amount, computed
    from the file's certificate [cert] and the float network's own deviations. *)
Theorem C82_mse : forall ls n L D j qop ops out xs T k, dense_file ls n j qop ops out ->
  (forall l, In l ls -> is_table l = true -> lipschitz L D l) -> xs <> [] -> (forall x, In x xs -> length x = n) ->
  (forall x, In x xs -> length (net_out ls x) = k) -> shape2 (length xs) k T ->
  exists v, mse_loss (outputs j xs) T = Ok v /\ np_mse (map (net_out ls) xs) T = Ok (mean_sq_err (map (net_out ls) xs) T) /\
    (Qabs (v - mean_sq_err (map (net_out ls) xs) T) <=
     sumQ (map (fun p => sq_slack (cert L D ls ops (fst p) (input_err qop (fst p))) (net_out ls (fst p)) (snd p)) (combine xs T))
       / inject_Z (Z.of_nat (entries T)))%Q.
Proof.
  intros ls n L D j qop ops out xs T k DF LIP NE LX LK ST. destruct (C79_certificate ls n L D j qop ops out DF LIP) as (net & EL & R).
  destruct (R xs NE LX) as (Y & EY & F). unfold mse_loss. rewrite (outputs_ok j net xs _ EL EY). cbn [rbind asF].
  assert (LY := PropAnneal.Forall2_length _ _ _ F).
  assert (SF := net_out_shape ls (length xs) k xs LK eq_refl).
  assert (SY : shape2 (length xs) k Y).
  { split; [congruence|]. clear -F LK. induction F as [|x y xs Y W F IH]; intros r Hr; [destruct Hr|]. destruct Hr as [<-|Hr]; [|apply IH; [intros z Hz; apply LK; now right|exact Hr]].
    destruct W as [-> _]. apply LK. now left. }
  assert (Hn : (0 < length xs)%nat) by (destruct xs; [contradiction|cbn; lia]).
  assert (Hk : (0 < k)%nat).
  { destruct DF as [Hn0 Sh _ _ _ _ _]. destruct xs as [|x xs]; [contradiction|]. rewrite <- (LK x (or_introl eq_refl)). apply (net_out_pos ls n); [exact Sh|exact Hn0|apply LX; now left]. }
  rewrite (np_mse_plain _ _ _ _ SY ST Hn Hk), (np_mse_plain _ _ _ _ SF ST Hn Hk). eexists. split; [reflexivity|]. split; [reflexivity|].
  unfold mean_sq_err. assert (EN := entries_shape _ _ _ ST).
  assert (P : (0 < inject_Z (Z.of_nat (entries T)))%Q) by (change 0%Q with (inject_Z 0); rewrite <- Zlt_Qlt; rewrite EN; nia).
  set (N := inject_Z (Z.of_nat (entries T))) in *.
  assert (G : (Qabs (sumQ (map (fun p => sq_err (fst p) (snd p)) (combine Y T)) - sumQ (map (fun p => sq_err (fst p) (snd p)) (combine (map (net_out ls) xs) T)))
     <= sumQ (map (fun p => sq_slack (cert L D ls ops (fst p) (input_err qop (fst p))) (net_out ls (fst p)) (snd p)) (combine xs T)))%Q).
  { destruct ST as [LT _]. clear -F LT. revert T LT. induction F as [|x y xs Y W F IH]; intros [|t T] LT; try discriminate LT; [cbn; discriminate|].
    cbn [combine map fst snd]. specialize (IH T ltac:(cbn in LT; congruence)). assert (C := sq_err_close _ y (net_out ls x) t (within_all _ _ _ W)).
    unfold sumQ in *. cbn [fold_right]. apply Qabs_Qle_condition in C. apply Qabs_Qle_condition in IH. apply Qabs_Qle_condition. lra. }
  set (a := sumQ (map _ (combine Y T))) in *. set (b := sumQ (map _ (combine (map (net_out ls) xs) T))) in *. set (c := sumQ _) in *.
  setoid_replace (a / N - b / N)%Q with ((a - b) * / N)%Q by (unfold Qdiv; ring). rewrite Qabs_Qmult.
  assert (I0 : (0 <= / N)%Q) by (apply Qlt_le_weak, Qinv_lt_0_compat, P). rewrite (Qabs_pos (/ N)) by exact I0. unfold Qdiv. apply Qmult_le_compat_r; assumption.
Qed.

(** ** Tuning with the classification loss *)
Lemma same_argmax y y' : Forall2 Qeq y y' -> np_argmax y = np_argmax y'.
Proof.
  intros F. destruct F as [|a b y y' H F]; [reflexivity|]. cbn [np_argmax]. f_equal. generalize 0%nat as bi, 1%nat as i. revert a b H.
  induction F as [|c d y y' E F IH]; intros a b H bi i; cbn [argmax_from]; [reflexivity|].
  assert (X : Qle_bool c a = Qle_bool d b).
  { destruct (Qle_bool c a) eqn:A, (Qle_bool d b) eqn:B; try reflexivity; exfalso.
    - apply Qle_bool_iff in A. rewrite E, H in A. apply Qle_bool_iff in A. congruence.
    - apply Qle_bool_iff in B. rewrite <- E, <- H in B. apply Qle_bool_iff in B. congruence. }
  rewrite X. destruct (Qle_bool d b); apply IH; assumption.
Qed.
Lemma same_hits a b ys : same_res same_val a b -> hits_of a ys = hits_of b ys.
Proof.
  unfold hits_of. destruct a as [v|e], b as [v'|e']; cbn [same_res rbind]; try contradiction; [|congruence].
  destruct v as [m|m], v' as [m'|m']; cbn [same_val asF]; try contradiction; [|intros ->; reflexivity].
  intros F. assert (X : predictions m = predictions m'); [|now rewrite X]. unfold predictions. induction F as [|r r' m m' H F IH]; [reflexivity|].
  cbn [mapM]. now rewrite (same_argmax _ _ H), IH.
Qed.
(** the loss of quantize_mnist.py as a loss of files; a network on which the loss function raises counts as worse than any other *)
Definition hit_loss (xs : list (list Q)) (ys : list nat) (j : jnet pbody) : Q :=
  match class_loss (outputs j xs) ys with Ok v => v | Err _ => 1%Q end.
Lemma hit_loss_reads xs ys : reads_network (hit_loss xs ys).
Proof.
  intros j j' SF. unfold hit_loss, class_loss. rewrite (same_hits _ _ ys (C81_engine_reads_network j j' xs SF)). destruct (hits_of _ _); reflexivity.
Qed.
Lemma hit_loss_counts xs ys j : exists k : nat, (hit_loss xs ys j == inject_Z (- Z.of_nat (length ys) + Z.of_nat k))%Q.
Proof.
  unfold hit_loss, class_loss, hits_of. destruct (outputs j xs) as [v|]; cbn [rbind].
  - destruct (predictions (asF v)) as [p|]; cbn [rbind].
    + assert (L : (count_hits p ys <= length ys)%nat).
      { clear. revert ys. induction p as [|a p IH]; intros [|e ys]; cbn [count_hits length]; try lia. specialize (IH ys). destruct (a =? e)%nat; lia. }
      exists (length ys - count_hits p ys)%nat. rewrite <- inject_Z_opp. replace (- Z.of_nat (length ys) + Z.of_nat (length ys - count_hits p ys)) with (- Z.of_nat (count_hits p ys)) by lia. reflexivity.
    + exists (S (length ys)). replace (- Z.of_nat (length ys) + Z.of_nat (S (length ys))) with 1 by lia. reflexivity.
  - exists (S (length ys)). replace (- Z.of_nat (length ys) + Z.of_nat (S (length ys))) with 1 by lia. reflexivity.
Qed.
Lemma hit_loss_value xs ys j h : hits_of (outputs j xs) ys = Ok h -> hit_loss xs ys j = (- inject_Z (Z.of_nat h))%Q.
Proof. intros E. unfold hit_loss, class_loss. rewrite E. reflexivity. Qed.
Lemma hit_loss_neg xs ys j : (hit_loss xs ys j <= 0)%Q -> exists h, hits_of (outputs j xs) ys = Ok h.
Proof. unfold hit_loss, class_loss. destruct (hits_of _ _) as [h|]; cbn [rbind]; [eauto|]. intros H. exfalso. lra. Qed.

(** Quantizing a classifier with the scripts' loss: the tuning ends, whatever the random draws, and the file it writes has at least as many
    hits as the untuned file, hence at least the number of test samples that the float network classifies correctly by more than twice the
    error certified for the untuned file.  (The untuned file must have a hit: a loss of 0 is mistaken for "no energy", see C37.) *)
Theorem C82_tuned_accuracy : forall c ls data n j, rready c ls data n -> pipe_build c ls data = Ok j -> Forall tuned_ok (jt_graph j) ->
  exists (w0 : world) qop ops out, export_net w0 (denses ls) = j /\ dense_file (denses ls) n j qop ops out /\
    forall L D xs ys tc, (forall l, In l (denses ls) -> is_table l = true -> lipschitz L D l) -> xs <> [] -> (forall x, In x xs -> length x = n) ->
    exists h0, hits_of (outputs j xs) ys = Ok h0 /\ (count (fun t => sure L D (denses ls) qop ops (fst t) (snd t)) (combine xs ys) <= h0)%nat /\
      ((0 < h0)%nat -> exists bound, forall r, fair_run r -> (bound <= tr_turns r)%nat ->
         exists j' h, build_file (Some (hit_loss xs ys)) tc r w0 (denses ls) = Ok (Some j') /\
           hits_of (outputs j' xs) ys = Ok h /\ (h0 <= h)%nat).
Proof.
  intros c ls data n j R PB OK. destruct (C80_same_file c ls data n j R PB) as (input & qi & fi & specs & CI & RI & DE & E).
  destruct R as [_ Hn Sh _ _ _].
  assert (QU : quantized n (denses ls) input specs) by (constructor; [exact Hn|exact Sh|eauto|exact DE|rewrite E; exact OK]).
  set (w0 := w_nodes (build_net input specs)) in *.
  assert (OK0 : Forall tuned_ok (jt_graph (export_net w0 (denses ls)))) by (rewrite E; exact OK).
  assert (SF := C80_session_file (denses ls) n input qi fi specs w0 Hn Sh CI RI DE (ss_start _ _) OK0). rewrite E in SF. destruct SF as (qop & ops & out & DF).
  exists w0, qop, ops, out. split; [exact E|]. split; [exact DF|]. intros L D xs ys tc LIP NE LX.
  destruct (C82_hits (denses ls) n L D j qop ops out xs ys DF LIP NE LX) as (h0 & H0 & LE & _). exists h0. split; [exact H0|]. split; [exact LE|]. intros P0.
  destruct (C81_build_terminates n (denses ls) input specs (hit_loss xs ys) tc (- Z.of_nat (length ys)) QU (hit_loss_reads xs ys) (hit_loss_counts xs ys)) as (bound & TB).
  exists bound. intros r FR HB. destruct (TB r FR HB) as (w' & EW). fold w0 in EW.
  destruct (C81_build_never_worse n (denses ls) input specs (hit_loss xs ys) tc r QU (hit_loss_reads xs ys) FR) as (o & EO & X). fold w0 in EO, X.
  assert (o = Some w') by congruence. destruct (X w' H) as [_ Y]. rewrite E in Y. rewrite (hit_loss_value xs ys j h0 H0) in Y.
  assert (PQ : (0 < inject_Z (Z.of_nat h0))%Q) by (change 0%Q with (inject_Z 0); rewrite <- Zlt_Qlt; lia).
  assert (Y' : (hit_loss xs ys (export_net w' (denses ls)) <= - inject_Z (Z.of_nat h0))%Q) by (destruct Y as [Y|(w & _ & Z0 & LZ)]; [exact Y|exfalso; lra]).
  destruct (hit_loss_neg xs ys (export_net w' (denses ls))) as (h & EH); [lra|]. exists (export_net w' (denses ls)), h.
  split; [unfold build_file; rewrite EW; reflexivity|]. split; [exact EH|]. rewrite (hit_loss_value _ _ _ _ EH) in Y'.
  assert (inject_Z (Z.of_nat h0) <= inject_Z (Z.of_nat h))%Q by lra. apply Zle_inj in H1. lia.
Qed.

(** ** Regression targets stored as a vector *)
Definition column_of (p : list Q) : list (list Q) := map (fun v => [v]) p.
Lemma sumQ_cons a l : sumQ (a :: l) = (a + sumQ l)%Q.
Proof. reflexivity. Qed.
Lemma sumQ_scale {A} (f : A -> Q) c : forall l, (sumQ (map (fun x => c * f x) l) == c * sumQ (map f l))%Q.
Proof. induction l as [|x l IH]; [cbn; ring|]. cbn [map]. rewrite !sumQ_cons, IH. ring. Qed.
Lemma sumQ_add {A} (f g : A -> Q) : forall l, (sumQ (map (fun x => f x + g x) l) == sumQ (map f l) + sumQ (map g l))%Q.
Proof. induction l as [|x l IH]; [cbn; ring|]. cbn [map]. rewrite !sumQ_cons, IH. ring. Qed.
Lemma sumQ_const {A} c : forall l : list A, (sumQ (map (fun _ => c) l) == inject_Z (Z.of_nat (length l)) * c)%Q.
Proof.
  induction l as [|x l IH]; [cbn; ring|]. cbn [map length]. rewrite sumQ_cons, IH, Nat2Z.inj_succ. unfold Z.succ. rewrite inject_Z_plus. change (inject_Z 1) with 1%Q. ring.
Qed.
Lemma sumQ_ext {A} (f g : A -> Q) : forall l, (forall x, (f x == g x)%Q) -> (sumQ (map f l) == sumQ (map g l))%Q.
Proof. induction l as [|x l IH]; intros H; [reflexivity|]. cbn [map]. rewrite !sumQ_cons, (IH H), (H x). reflexivity. Qed.
Definition sq (x : Q) : Q := (x * x)%Q.
Lemma sq_nonneg x : (0 <= sq x)%Q.
Proof.
  unfold sq. destruct (Qlt_le_dec x 0) as [H|H]; [|now apply Qmult_le_0_compat].
  setoid_replace (x * x)%Q with ((- x) * (- x))%Q by ring. apply Qmult_le_0_compat; lra.
Qed.
(** all pairs: what numpy computes for a column of predictions and a vector of targets *)
Lemma flat_mse p y : length p = length y -> (0 < length y)%nat -> exists v, np_mse (column_of p) (flat_targets y) = Ok v /\
  (v == mean (map sq p) - 2 * mean p * mean y + mean (map sq y))%Q.
Proof.
  intros LE P0. set (N := length y) in *. unfold np_mse, flat_targets, column_of, rows_of, cols_of. rewrite map_length. cbn [length hd].
  assert (CP : length (hd [] (map (fun v : Q => [v]) p)) = 1%nat) by (destruct p; [cbn in LE; lia|reflexivity]). rewrite CP, LE. fold N.
  assert (B1 : bc_dim N 1 = Ok N). { unfold bc_dim. destruct (Nat.eqb_spec N 1) as [->|]; reflexivity. }
  assert (B2 : bc_dim 1 N = Ok N). { unfold bc_dim. destruct (Nat.eqb_spec 1 N) as [<-|]; reflexivity. }
  rewrite B1, B2. cbn [rbind]. destruct (Nat.eqb_spec (N * N) 0) as [E|_]; [nia|]. eexists. split; [reflexivity|].
  assert (G1 : forall i t, (i < N)%nat -> bc_get (map (fun v : Q => [v]) p) i t = nth i p 0%Q).
  { intros i t Hi. unfold bc_get, cols_of, rows_of. rewrite CP, map_length, LE. cbn [Nat.eqb].
    assert (X : forall k, (k < N)%nat -> nth 0 (nth k (map (fun v : Q => [v]) p) []) 0%Q = nth k p 0%Q).
    { intros k Hk. rewrite (nth_indep _ [] [0%Q]) by (rewrite map_length; lia). rewrite (map_nth (fun v : Q => [v])). reflexivity. }
    fold N. destruct (Nat.eqb_spec N 1) as [E|E]; [rewrite X by lia; f_equal; lia|apply X; exact Hi]. }
  assert (G2 : forall i t, (t < N)%nat -> bc_get [y] i t = nth t y 0%Q).
  { intros i t Ht. unfold bc_get, cols_of, rows_of. cbn [length hd Nat.eqb nth]. fold N. destruct (Nat.eqb_spec N 1) as [E|E]; [f_equal; lia|reflexivity]. }
  set (n := inject_Z (Z.of_nat N)).
  assert (Pn : (0 < n)%Q) by (unfold n; change 0%Q with (inject_Z 0); rewrite <- Zlt_Qlt; lia).
  assert (S1 : (sumQ (map (fun i => sumQ (map (fun t => (bc_get (map (fun v : Q => [v]) p) i t - bc_get [y] i t) * (bc_get (map (fun v : Q => [v]) p) i t - bc_get [y] i t))%Q (seq 0 N))) (seq 0 N))
     == sumQ (map (fun a => sumQ (map (fun b => (a - b) * (a - b))%Q y)) p))%Q).
  { rewrite <- (map_seq_nth (fun a => sumQ (map (fun b => (a - b) * (a - b))%Q y)) 0%Q p), LE. fold N.
    rewrite (map_seq_ext _ (fun i => sumQ (map (fun b => (nth i p 0 - b) * (nth i p 0 - b))%Q y)) N); [reflexivity|].
    intros i Hi. f_equal. rewrite <- (map_seq_nth (fun b => (nth i p 0 - b) * (nth i p 0 - b))%Q 0%Q y). fold N. apply map_seq_ext. intros t Ht. rewrite G1, G2 by assumption. reflexivity. }
  rewrite S1.
  assert (S2 : (sumQ (map (fun a => sumQ (map (fun b => (a - b) * (a - b))%Q y)) p) == n * sumQ (map sq p) - 2 * sumQ p * sumQ y + n * sumQ (map sq y))%Q).
  { assert (R : forall a, (sumQ (map (fun b => (a - b) * (a - b))%Q y) == (n * sq a + (- 2 * sumQ y) * a) + sumQ (map sq y))%Q).
    { intros a. rewrite (sumQ_ext _ (fun b => (sq a + - 2 * a * b) + sq b)%Q) by (intros b; unfold sq; ring).
      rewrite sumQ_add, sumQ_add, sumQ_const, (sumQ_scale (fun b => b)), map_id. unfold n, N. ring. }
    rewrite (sumQ_ext _ _ p R), sumQ_add, sumQ_add, sumQ_const, sumQ_scale, (sumQ_scale (fun b => b)), map_id, LE. unfold n, N. ring. }
  rewrite S2. unfold mean. rewrite !map_length, LE. fold N. rewrite Nat2Z.inj_mul, inject_Z_mult. fold n. field. lra.
Qed.
(** If the targets are a vector (one axis) and the network has one output, the scripts' mean squared error compares every prediction with
    every target: the constant prediction "mean of the targets" has the smallest loss of all, smaller than perfect predictions. *)
Theorem C82_flat_targets : forall p y, length p = length y -> (0 < length y)%nat ->
  exists v c s, np_mse (column_of p) (flat_targets y) = Ok v /\ np_mse (column_of (map (fun _ => mean y) y)) (flat_targets y) = Ok c /\
    np_mse (column_of y) (flat_targets y) = Ok s /\ (c <= v)%Q /\ (s == 2 * c)%Q /\
    (v == mean (map sq p) - 2 * mean p * mean y + mean (map sq y))%Q.
Proof.
  intros p y LE P0. destruct (flat_mse p y LE P0) as (v & EV & Hv).
  destruct (flat_mse (map (fun _ => mean y) y) y (map_length _ _) P0) as (c & EC & Hc).
  destruct (flat_mse y y eq_refl P0) as (s & ES & Hs). exists v, c, s. split; [exact EV|]. split; [exact EC|]. split; [exact ES|].
  set (m := mean y) in *. set (n := inject_Z (Z.of_nat (length y))).
  assert (Pn : (0 < n)%Q) by (unfold n; change 0%Q with (inject_Z 0); rewrite <- Zlt_Qlt; lia).
  assert (M1 : (mean (map (fun _ => m) y) == m)%Q).
  { unfold mean. rewrite sumQ_const, map_length. fold n. field. lra. }
  assert (M2 : (mean (map sq (map (fun _ => m) y)) == m * m)%Q).
  { unfold mean. rewrite map_map, sumQ_const, map_length. fold n. unfold sq. field. lra. }
  rewrite M1, M2 in Hc.
  assert (V : (0 <= mean (map sq p) - mean p * mean p)%Q).
  { assert (NN : forall a l, (0 <= sumQ (map (fun x => sq (x - a)) l))%Q).
    { intros a l. induction l as [|x l IH]; [discriminate|]. cbn [map]. rewrite sumQ_cons. assert (G := sq_nonneg (x - a)). lra. }
    specialize (NN (mean p) p).
    assert (EX : (sumQ (map (fun x => sq (x - mean p)) p) == sumQ (map sq p) + (- 2 * mean p) * sumQ p + n * sq (mean p))%Q).
    { rewrite (sumQ_ext _ (fun x => (sq x + (- 2 * mean p) * x) + sq (mean p))%Q) by (intros x; unfold sq; ring).
      rewrite sumQ_add, sumQ_add, sumQ_const, (sumQ_scale (fun b => b)), map_id, LE. fold n. ring. }
    rewrite EX in NN. assert (SP : (sumQ p == n * mean p)%Q) by (unfold mean; rewrite LE; fold n; field; lra). rewrite SP in NN.
    assert (Z0 : (sumQ (map sq p) == n * mean (map sq p))%Q) by (unfold mean; rewrite map_length, LE; fold n; field; lra). rewrite Z0 in NN. unfold sq in NN.
    apply Qmult_lt_0_le_reg_r with n; [exact Pn|]. rewrite Qmult_0_l.
    setoid_replace ((mean (map sq p) - mean p * mean p) * n)%Q with (n * mean (map sq p) + - (2) * mean p * (n * mean p) + n * (mean p * mean p))%Q by ring. exact NN. }
  split; [|split; [|exact Hv]].
  - rewrite Hc, Hv. assert (G := sq_nonneg (mean p - m)). unfold sq in G. lra.
  - rewrite Hc, Hs. fold m. ring.
Qed.

(** *** Example: a two-class ReLU classifier (softmax read as logits), default configuration, six test samples. The float network classifies
    all six as labelled, three of them surely; the file has five hits (the last sample lies outside the calibration range). *)
Definition cx_l2 : kdense := mkkd (str "c2") 2 [[1#1; 1#2]; [-1#2; 1#3]; [1#4; -1#1]]%Q None (str "softmax") (fun x => x).
Definition cx_net : list plyr := [PDense rx_l1; PSkip; PDense cx_l2].
Definition cx_x : list (list Q) := [[1; -1]; [-1#2; 1#2]; [3#4; 1]; [0; -1#4]; [1#2; 1#3]; [2; 3]]%Q.
Definition cx_y : list nat := [0; 1; 0; 0; 0; 1]%nat.
Definition cx_run : tune_run := mkrun 5 60 (fun _ => e9_draws) e9_ada.
Example C82_example_ready : rready cfg_default cx_net ex_rows 2.
Proof.
  constructor.
  - exists int8. split; [vm_compute; reflexivity|exact int8_narrow].
  - lia.
  - cbn [denses cx_net shaped rx_l1 cx_l2 kd_units kd_kernel kd_bias].
    split; [lia|]. split; [lia|]. split; [reflexivity|].
    split; [intros r Hr; repeat (destruct Hr as [<- | Hr]; [reflexivity|]); destruct Hr|].
    split; [intros b Hb; assert (b = [1#10; 0; -1#5]%Q) by congruence; subst; reflexivity|].
    split; [lia|]. split; [lia|]. split; [reflexivity|].
    split; [intros r Hr; repeat (destruct Hr as [<- | Hr]; [reflexivity|]); destruct Hr|].
    split; [intros b Hb; discriminate|exact Logic.I].
  - constructor; [|constructor; [|constructor]];
    (split; [|exists dense_default, int8, int8, int32; split; [reflexivity|exact default_good]]).
    + right; right; left; vm_compute; reflexivity.
    + left; right; vm_compute; reflexivity.
  - intros r Hr. repeat (destruct Hr as [<- | Hr]; [reflexivity|]). destruct Hr.
  - discriminate.
Qed.
Example C82_example : exists j qop ops out, pipe_build cfg_default cx_net ex_rows = Ok j /\ Forall tuned_ok (jt_graph j) /\
  dense_file (denses cx_net) 2 j qop ops out /\ (forall l, In l (denses cx_net) -> is_table l = true -> lipschitz idf idd l) /\
  hits_of (outputs j cx_x) cx_y = Ok 5%nat /\ hits_of (Ok (VF (map (net_out (denses cx_net)) cx_x))) cx_y = Ok 6%nat /\
  count (fun t => sure idf idd (denses cx_net) qop ops (fst t) (snd t)) (combine cx_x cx_y) = 3%nat /\ fair_run cx_run /\
  shape2 (length cx_x) 2 (map (net_out (denses cx_net)) cx_x) /\
  np_mse (column_of [1; 2]%Q) (flat_targets [1; 2]%Q) = Ok (2 # 4)%Q.
Proof.
  assert (K : match pipe_build cfg_default cx_net ex_rows with
    | Ok j => forallb tuned_okb (jt_graph j) && match jt_graph j with
              | q0 :: rest => (match hits_of (outputs j cx_x) cx_y with Ok h => (h =? 5)%nat | _ => false end) &&
                   (count (fun t => sure idf idd (denses cx_net) q0 (removelast rest) (fst t) (snd t)) (combine cx_x cx_y) =? 3)%nat
              | [] => false end
    | _ => false end = true) by (vm_compute; reflexivity).
  destruct (pipe_build cfg_default cx_net ex_rows) as [j|] eqn:PB; [|discriminate K]. apply andb_true_iff in K as [K1 K2].
  assert (OK : Forall tuned_ok (jt_graph j)) by (apply Forall_forall; intros op Hop; rewrite forallb_forall in K1; apply tuned_okb_sound, K1, Hop).
  destruct (C82_tuned_accuracy cfg_default cx_net ex_rows 2 j C82_example_ready PB OK) as (w0 & qop & ops & out & _ & DF & _).
  rewrite (df_graph _ _ _ _ _ _ DF) in K2. rewrite removelast_last in K2. apply andb_true_iff in K2 as [K2 K3].
  exists j, qop, ops, out. split; [reflexivity|]. split; [exact OK|]. split; [exact DF|]. split; [|split; [|split; [|split; [|split; [|split]]]]].
  - intros l [<- | [<- | []]] T; discriminate T.
  - destruct (hits_of (outputs j cx_x) cx_y) as [h|]; [|discriminate K2]. apply Nat.eqb_eq in K2. now rewrite K2.
  - vm_compute. reflexivity.
  - apply Nat.eqb_eq in K3. exact K3.
  - exact (proj2 (proj2 (proj2 (proj2 (proj2 C81_example_hypotheses))))).
  - split; [reflexivity|]. intros r Hr. repeat (destruct Hr as [<- | Hr]; [reflexivity|]). destruct Hr.
  - vm_compute. reflexivity.
Qed.
Print Assumptions C82_tuned_accuracy.
Print Assumptions C82_mse.
Print Assumptions C82_flat_targets.
