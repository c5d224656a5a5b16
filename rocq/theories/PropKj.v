(** Property C83: the files written by keras2json hold the model they were made from. *)
From Coq Require Import String.
From Verif Require Import Base DtypeModel EngineModel EngineProofs BuildModel FcLayer KjModel.
Open Scope Z_scope.
Open Scope list_scope.

(** ** Specification: dense models and a reader of the files *)
(** x @ K + b of Keras: rows of K are inputs *)
Definition k_affine (K : list (list Q)) (b x : list Q) : list Q :=
  map (fun j => (sumQ (map (fun p => fst p * nth j (snd p) 0) (combine x K)) + nth j b 0)%Q) (seq 0 (length b)).
(** interpretation of the activation names *)
Definition acts := chars -> option (list Q -> list Q).
Definition reserved (a : chars) : Prop := a = str "FULLY_CONNECTED_F" \/ a = str "FLATTEN".
(** [means A n ls F]: ls is a stack of layers for vectors of length n and computes F *)
Inductive means (A : acts) : nat -> list flayer -> (list Q -> list Q) -> Prop :=
| m_nil n : means A n [] (fun x => x)
| m_dense n k l dt dt' K b a f ls F :
    fl_class l = str "Dense" -> fl_weights l = [A2 dt n k K; A1 dt' b] -> length K = n -> length b = k ->
    fl_act l = AFun a -> A a = Some f -> ~ reserved a -> (forall y, length y = k -> length (f y) = k) ->
    means A k ls F -> means A n (l :: ls) (fun x => F (f (k_affine K b x)))
| m_square n l dt K a f ls F :
    fl_class l = str "Dense" -> fl_weights l = [A2 dt n n K] -> length K = n ->
    fl_act l = AFun a -> A a = Some f -> ~ reserved a -> (forall y, length y = n -> length (f y) = n) ->
    means A n ls F -> means A n (l :: ls) (fun x => F (f (k_affine K (repeat 0%Q n) x)))
| m_skip n l ls F : In (fl_class l) [str "InputLayer"; str "Dropout"; str "Flatten"] -> means A n ls F -> means A n (l :: ls) F.
(** reading an operator of the file: W x + b with the rows of the kernel, or a named activation *)
Definition row_dot (x w : list Q) : Q := sumQ (map (fun p => fst p * snd p)%Q (combine x w)).
Definition run_op (A : acts) (o : fop) (x : list Q) : option (list Q) :=
  if chars_eqb (fo_type o) (str "FULLY_CONNECTED_F") then
    match map fn_data (fo_inputs o) with
    | [A2 _ n k m; A1 _ b] =>
        if (length x =? k)%nat && (length b =? n)%nat
        then Some (map (fun p => (row_dot x (fst p) + snd p)%Q) (combine m b)) else None
    | _ => None
    end
  else if chars_eqb (fo_type o) (str "FLATTEN") then Some x
  else match A (fo_type o) with Some f => Some (f x) | None => None end.
Fixpoint run_file (A : acts) (g : list fop) (x : list Q) : option (list Q) :=
  match g with [] => Some x | o :: r => match run_op A o x with Some y => run_file A r y | None => None end end.

Lemma run_file_app A g h x : run_file A (g ++ h) x = match run_file A g x with Some y => run_file A h y | None => None end.
Proof. revert x. induction g as [|o g IH]; intros x; [reflexivity|]. cbn [app run_file]. destruct (run_op A o x); [apply IH|reflexivity]. Qed.
Lemma k_affine_length K b x : length (k_affine K b x) = length b.
Proof. unfold k_affine. now rewrite map_length, seq_length. Qed.
Lemma chars_eqb_neq a b : a <> b -> chars_eqb a b = false.
Proof. intros H. destruct (chars_eqb a b) eqn:E; [|reflexivity]. exfalso. apply H. now apply chars_eqb_eq. Qed.
Lemma run_act A a nm f x : A a = Some f -> ~ reserved a -> run_op A (mkfop a nm [] []) x = Some (f x).
Proof.
  intros E R. unfold run_op. cbn [fo_type]. rewrite chars_eqb_neq by (intros C; apply R; now left).
  rewrite chars_eqb_neq by (intros C; apply R; now right). now rewrite E.
Qed.
Lemma combine_map_r {A B C} (g : B -> C) : forall (x : list A) y, combine x (map g y) = map (fun p => (fst p, g (snd p))) (combine x y).
Proof. induction x as [|a x IH]; intros [|b y]; try reflexivity. cbn [map combine fst snd]. now rewrite IH. Qed.
Lemma seq_combine {B} (g : nat -> list Q) (h : list Q -> Q -> B) : forall b s, map (fun p => h (fst p) (snd p)) (combine (map g (seq s (length b))) b) =
  map (fun j => h (g j) (nth (j - s) b 0%Q)) (seq s (length b)).
Proof.
  induction b as [|c b IH]; intros s; [reflexivity|]. cbn [length seq map combine fst snd]. rewrite Nat.sub_diag. cbn [nth]. f_equal.
  rewrite IH. apply map_ext_in. intros j Hj. apply in_seq in Hj. replace (j - s)%nat with (S (j - S s)) by lia. reflexivity.
Qed.
Lemma run_fc A dt dt' n k K b name n1 n2 x : length K = n -> length b = k -> length x = n ->
  run_op A (mkfop (str "FULLY_CONNECTED_F") name [build_node (arr_T (A2 dt n k K)) n1; build_node (A1 dt' b) n2] []) x = Some (k_affine K b x).
Proof.
  intros LK LB LX. unfold run_op. cbn [fo_type fo_inputs map build_node fn_data arr_T].
  change (chars_eqb (str "FULLY_CONNECTED_F") (str "FULLY_CONNECTED_F")) with true. cbv iota. rewrite LX, LB, !Nat.eqb_refl. cbn [andb]. f_equal.
  rewrite <- LB. rewrite (seq_combine (fun j => map (fun r => nth j r 0%Q) K) (fun w c => (row_dot x w + c)%Q)). unfold k_affine. apply map_ext. intros j.
  rewrite Nat.sub_0_r. unfold row_dot. rewrite combine_map_r, map_map. reflexivity.
Qed.
Lemma convert_cons l ls p g : f_layer l = Ok p -> f_convert ls = Ok g -> f_convert (l :: ls) = Ok (p ++ g).
Proof.
  unfold f_convert. cbn [mapM]. intros ->. cbn [rbind]. destruct (mapM f_layer ls) as [xs|]; cbn [rbind]; [|discriminate]. intros E. cbn [concat]. congruence.
Qed.
Lemma layer_dense l : fl_class l = str "Dense" -> f_layer l = f_dense l.
Proof. intros E. unfold f_layer. rewrite E. reflexivity. Qed.
Lemma layer_skip l : In (fl_class l) [str "InputLayer"; str "Dropout"; str "Flatten"] -> f_layer l = Ok [] \/ f_layer l = Ok f_flatten.
Proof. intros [E|[E|[E|[]]]]; unfold f_layer; rewrite <- E; [left|left|right]; reflexivity. Qed.

(** Every stack of dense layers (with Dropout, InputLayer and Flatten layers on vectors) converts to a file from which its function can be
    computed: kernel rows times input plus bias, then the named activation. *)
Theorem C83_function : forall A n ls F, means A n ls F -> exists g, f_convert ls = Ok g /\ forall x, length x = n -> run_file A g x = Some (F x).
Proof.
  intros A n ls F M. induction M as [n|n k l dt dt' K b a f ls F EC EW LK LB EA AF R FL M IH|n l dt K a f ls F EC EW LK EA AF R FL M IH|n l ls F I0 M IH].
  - exists []. split; [reflexivity|]. intros x _. reflexivity.
  - destruct IH as (g & EG & RG). eexists. split.
    + apply convert_cons; [|exact EG]. rewrite layer_dense by exact EC. unfold f_dense, dense_bias. rewrite EW, EA.
      change (py_index [A2 dt n k K; A1 dt' b] 0) with (Ok (A2 dt n k K)). cbn [rbind]. reflexivity.
    + intros x LX. cbn [app run_file]. rewrite (run_fc A dt dt' n k K b) by assumption. rewrite (run_act A a _ f) by assumption.
      apply RG. apply FL. now rewrite k_affine_length.
  - destruct IH as (g & EG & RG). eexists. split.
    + apply convert_cons; [|exact EG]. rewrite layer_dense by exact EC. unfold f_dense, dense_bias. rewrite EW, EA.
      change (py_index [A2 dt n n K] 0) with (Ok (A2 dt n n K)). cbn [rbind arr_len arr_shape hd]. reflexivity.
    + intros x LX. cbn [app run_file]. rewrite (run_fc A dt (str "float64") n n K (repeat 0%Q n)) by (try rewrite repeat_length; assumption || reflexivity). rewrite (run_act A a _ f) by assumption.
      apply RG. apply FL. now rewrite k_affine_length, repeat_length.
  - destruct IH as (g & EG & RG). destruct (layer_skip l I0) as [E|E].
    + exists g. split; [exact (convert_cons l ls [] g E EG)|exact RG].
    + exists (f_flatten ++ g). split; [exact (convert_cons l ls f_flatten g E EG)|]. intros x LX. rewrite run_file_app. exact (RG x LX).
Qed.
(** A dense layer without bias is given one zero per input instead of one per unit: unless it is square, the bias of the file does not
    fit its kernel and no reader can add it. *)
Theorem C83_missing_bias : forall A l dt n k K a, fl_class l = str "Dense" -> fl_weights l = [A2 dt n k K] -> fl_act l = AFun a -> n <> k ->
  exists fc act kn bn, f_convert [l] = Ok [fc; act] /\ fo_inputs fc = [kn; bn] /\ fn_shape kn = [k; n] /\ fn_shape bn = [n] /\
    forall x g, run_file A (fc :: g) x = None.
Proof.
  intros A l dt n k K a EC EW EA N. unfold f_convert. cbn [mapM]. rewrite layer_dense by exact EC. unfold f_dense, dense_bias. rewrite EW, EA.
  change (py_index [A2 dt n k K] 0) with (Ok (A2 dt n k K)). cbn [rbind arr_len arr_shape hd]. do 4 eexists. split; [reflexivity|]. split; [reflexivity|]. split; [reflexivity|].
  split; [cbn [build_node fn_shape arr_shape]; now rewrite repeat_length|]. intros x g. cbn [run_file]. unfold run_op. cbn [fo_type fo_inputs map build_node fn_data arr_T].
  change (chars_eqb (str "FULLY_CONNECTED_F") (str "FULLY_CONNECTED_F")) with true. cbv iota. rewrite repeat_length.
  destruct (Nat.eqb_spec n k) as [|_]; [contradiction|]. now rewrite andb_false_r.
Qed.

(** ** What can be converted *)
Inductive supported := SDense | SLstm | SConv | SPool | SFlatten | SSkip.
Definition kind_of (l : flayer) (s : supported) : Prop :=
  fl_class l = match s with SDense => str "Dense" | SLstm => str "LSTM" | SConv => str "Conv2D" | SPool => str "MaxPooling2D" | SFlatten => str "Flatten" | SSkip => str "Dropout" end
  \/ (s = SSkip /\ fl_class l = str "InputLayer").
Definition convertible (l : flayer) (s : supported) : Prop :=
  match s with
  | SDense => fl_weights l <> [] /\ exists a, fl_act l = AFun a
  | SLstm => (3 <= length (fl_weights l))%nat /\ exists a b c, fl_batch l = Some [a; b; c]
  | SConv => (2 <= length (fl_weights l))%nat
  | _ => True
  end.
Lemma layer_kind l s : kind_of l s -> f_layer l = match s with SDense => f_dense l | SLstm => f_lstm l | SConv => f_conv l | SPool => Ok (f_pool l) | SFlatten => Ok f_flatten | SSkip => Ok [] end.
Proof. intros [E|[-> E]]; unfold f_layer; rewrite E; [destruct s|]; reflexivity. Qed.
Lemma layer_converts l s : kind_of l s -> (exists p, f_layer l = Ok p) <-> convertible l s.
Proof.
  intros Kd. rewrite (layer_kind l s Kd). destruct s; cbn [convertible]; try (split; [intros _; exact Logic.I|eauto]).
  - unfold f_dense, dense_bias. destruct (fl_weights l) as [|k w]; [split; [intros [p C]; discriminate C|intros [C _]; contradiction]|].
    assert (E0 : py_index (k :: w) 0 = Ok k) by (apply py_index_in_range; [lia|reflexivity]). rewrite E0. cbn [rbind]. destruct (fl_act l) as [a|c].
    + split; [intros _; split; [discriminate|eauto]|intros _]. destruct w; cbn [rbind]; eauto.
    + split; [|intros [_ [a C]]; discriminate C]. intros [p C]. destruct w; cbn [rbind] in C; discriminate C.
  - unfold f_lstm. destruct (fl_weights l) as [|w [|u [|b r]]]; try (split; [intros [p C]; cbn in C; discriminate C|intros [C _]; cbn in C; lia]).
    assert (E0 : py_index (w :: u :: b :: r) 0 = Ok w) by (apply py_index_in_range; [lia|reflexivity]).
    assert (E1 : py_index (w :: u :: b :: r) 1 = Ok u) by (apply py_index_in_range; [lia|reflexivity]).
    assert (E2 : py_index (w :: u :: b :: r) 2 = Ok b) by (apply py_index_in_range; [lia|reflexivity]).
    rewrite E0, E1, E2. cbn [rbind]. destruct (fl_batch l) as [sh|]; [|split; [intros [p C]; discriminate C|intros (_ & a & c & d & C); discriminate C]].
    destruct (Nat.eqb_spec (length sh) 3) as [E|E]; cbn [negb].
    + split; [intros _; split; [cbn; lia|]|eauto]. destruct sh as [|a [|c [|d [|]]]]; try discriminate E. eauto.
    + split; [intros [p C]; discriminate C|]. intros (_ & a & c & d & C). assert (sh = [a; c; d]) by congruence. subst sh. cbn in E. contradiction.
  - unfold f_conv. destruct (fl_weights l) as [|w [|b r]]; try (split; [intros [p C]; cbn in C; discriminate C|intros C; cbn in C; lia]).
    assert (E1 : py_index (w :: b :: r) 1 = Ok b) by (apply py_index_in_range; [lia|reflexivity]).
    assert (E0 : py_index (w :: b :: r) 0 = Ok w) by (apply py_index_in_range; [lia|reflexivity]). rewrite E0, E1. cbn [rbind]. split; [intros _; cbn; lia|eauto].
Qed.

Lemma convert_mapM ls g : f_convert ls = Ok g <-> exists xs, mapM f_layer ls = Ok xs /\ g = concat xs.
Proof.
  unfold f_convert. destruct (mapM f_layer ls) as [xs|e]; cbn [rbind]; split.
  - intros E. exists xs. split; [reflexivity|congruence].
  - intros (ys & E & ->). congruence.
  - discriminate.
  - intros (ys & E & _). discriminate E.
Qed.
(** A model of supported layers converts iff every dense layer has a kernel and a named activation, every LSTM its three arrays and the
    shape of its input (three axes), and every convolution a kernel and a bias. *)
Theorem C83_converts : forall ls ss, Forall2 kind_of ls ss -> (exists g, f_convert ls = Ok g) <-> Forall2 convertible ls ss.
Proof.
  intros ls ss Kd. split.
  - intros (g & E). apply convert_mapM in E. destruct E as (xs & E & _). apply mapM_inv in E. revert xs E.
    induction Kd as [|l s ls ss Kl Kd IH]; intros xs F; [constructor|]. inversion F as [|? p ? xs' EP F']; subst. constructor; [|exact (IH xs' F')].
    apply (layer_converts l s Kl). now exists p.
  - intros C. assert (X : exists xs, mapM f_layer ls = Ok xs).
    { revert C. induction Kd as [|l s ls ss Kl Kd IH]; intros C; [exists []; reflexivity|]. inversion C as [|? ? ? ? Cl C']; subst.
      destruct (proj2 (layer_converts l s Kl) Cl) as (p & EP). destruct (IH C') as (xs & EX). exists (p :: xs). cbn [mapM]. rewrite EP. cbn [rbind]. rewrite EX. reflexivity. }
    destruct X as (xs & EX). exists (concat xs). apply convert_mapM. eauto.
Qed.
(** One layer of another class makes the whole conversion fail with a ValueError naming it, if the layers before it convert. *)
Definition unsupported : list chars :=
  map str ["BatchNormalization"; "Activation"; "ReLU"; "LeakyReLU"; "Softmax"; "GRU"; "SimpleRNN"; "Bidirectional"; "TimeDistributed"; "Embedding";
           "Reshape"; "Permute"; "Add"; "Concatenate"; "AveragePooling2D"; "GlobalAveragePooling2D"; "MaxPooling1D"; "Conv1D"; "Conv3D"; "ZeroPadding2D";
           "UpSampling2D"; "Functional"; "Sequential"; "Lambda"; "GaussianNoise"; "SpatialDropout2D"]%string.
Theorem C83_unsupported : forall l ls ls' g, In (fl_class l) unsupported -> f_convert ls = Ok g -> f_convert (ls ++ l :: ls') = Err EValueError.
Proof.
  intros l ls ls' g Hu E. apply convert_mapM in E. destruct E as (xs & E & _).
  assert (EL : f_layer l = Err EValueError).
  { unfold f_layer. cbn [unsupported map In] in Hu. repeat (destruct Hu as [Hu|Hu]; [rewrite <- Hu; reflexivity|]). destruct Hu. }
  unfold f_convert. assert (M : mapM f_layer (ls ++ l :: ls') = Err EValueError).
  { revert xs E. induction ls as [|a ls IH]; intros xs E; cbn [app mapM] in *; [now rewrite EL|].
    destruct (f_layer a) as [p|]; cbn [rbind] in *; [|discriminate E]. destruct (mapM f_layer ls) as [ys|]; cbn [rbind] in E; [|discriminate E].
    now rewrite (IH ys eq_refl). }
  now rewrite M.
Qed.

(** ** What the file holds *)
Definition has_attr (o : fop) (n : chars) (v : list (option Z)) : Prop := exists a, In a (fo_attrs o) /\ fa_name a = n /\ fa_value a = v.
(** entry (i, j) of a matrix *)
Definition ent (m : list (list Q)) (i j : nat) : Q := nth j (nth i m []) 0%Q.
(** [transposed m t n k]: t is k rows of n entries, and its entry (j, i) is entry (i, j) of m *)
Definition transposed (m t : list (list Q)) (n k : nat) : Prop :=
  length t = k /\ (forall r, In r t -> length r = n) /\ forall i j, (i < n)%nat -> (j < k)%nat -> ent t j i = ent m i j.
Definition rect (n k : nat) (m : list (list Q)) : Prop := length m = n /\ forall r, In r m -> length r = k.
Lemma nth_map_lt {A B} (f : A -> B) l i d d' : (i < length l)%nat -> nth i (map f l) d = f (nth i l d').
Proof. intros H. rewrite (nth_indep _ d (f d')) by (now rewrite map_length). apply map_nth. Qed.
Lemma T_transposed n k m : length m = n -> transposed m (map (fun j => map (fun r => nth j r 0%Q) m) (seq 0 k)) n k.
Proof.
  intros L. split; [now rewrite map_length, seq_length|]. split.
  - intros r Hr. apply in_map_iff in Hr. destruct Hr as (j & <- & _). now rewrite map_length.
  - intros i j Hi Hj. unfold ent. rewrite (nth_map_lt _ _ j [] 0%nat) by (now rewrite seq_length). rewrite seq_nth by exact Hj. cbn [Nat.add].
    rewrite (nth_map_lt _ _ i 0%Q []) by lia. reflexivity.
Qed.
(** A dense layer: its kernel transposed (one row per unit), its bias, and its activation under its own name. *)
Theorem C83_dense_contents : forall l dt dt' n k K b a, fl_class l = str "Dense" -> fl_weights l = [A2 dt n k K; A1 dt' b] -> rect n k K -> length b = k -> fl_act l = AFun a ->
  exists t, f_layer l = Ok [mkfop (str "FULLY_CONNECTED_F") (fl_name l)
                              [mkfn (fl_name l ++ str "/Kernel") dt [k; n] (A2 dt k n t); mkfn (fl_name l ++ str "/Bias") dt' [k] (A1 dt' b)] [];
                            mkfop a (a ++ str " activation function") [] []] /\ transposed K t n k.
Proof.
  intros l dt dt' n k K b a EC EW [LK RK] LB EA. eexists. split; [|exact (T_transposed n k K LK)].
  rewrite layer_dense by exact EC. unfold f_dense, dense_bias. rewrite EW, EA. change (py_index [A2 dt n k K; A1 dt' b] 0) with (Ok (A2 dt n k K)). cbn [rbind].
  unfold build_node. cbn [arr_T arr_dtype arr_shape]. now rewrite LB.
Qed.
(** A convolution: kernel and bias as they are, its strides, and padding 0 exactly for "valid"; the activation gets upper case and _F. *)
Theorem C83_conv_contents : forall l w b ws a, fl_class l = str "Conv2D" -> fl_weights l = w :: b :: ws -> fl_act l = AFun a -> In (fl_padding l) [str "valid"; str "same"] ->
  exists o act, f_layer l = Ok [o; act] /\ fo_type o = str "CONV_2D_F" /\ fo_type act = upper a ++ str "_F" /\
    map fn_data (fo_inputs o) = [w; b] /\ map fn_shape (fo_inputs o) = [arr_shape w; arr_shape b] /\ map fn_dtype (fo_inputs o) = [arr_dtype w; arr_dtype b] /\
    has_attr o (str "strides") (map Some (fl_strides l)) /\
    exists p, has_attr o (str "padding") [Some p] /\ (p = 0 <-> fl_padding l = str "valid") /\ (p = 1 <-> fl_padding l = str "same").
Proof.
  intros l w b ws a EC EW EA HP. rewrite (layer_kind l SConv (or_introl EC)). unfold f_conv. rewrite EW, EA.
  assert (E0 : py_index (w :: b :: ws) 0 = Ok w) by (apply py_index_in_range; [lia|reflexivity]).
  assert (E1 : py_index (w :: b :: ws) 1 = Ok b) by (apply py_index_in_range; [lia|reflexivity]). rewrite E0, E1. cbn [rbind].
  do 2 eexists. split; [reflexivity|]. cbn [fo_type fo_inputs map build_node fn_data fn_shape fn_dtype act_name].
  do 5 (split; [reflexivity|]). split; [eexists; split; [left; reflexivity|split; reflexivity]|].
  exists (pad_code (fl_padding l)). split; [eexists; split; [right; left; reflexivity|split; reflexivity]|].
  destruct HP as [<-|[<-|[]]]; [change (pad_code (str "valid")) with 0|change (pad_code (str "same")) with 1]; split; split; congruence || discriminate || reflexivity.
Qed.
(** A pooling layer: its window, strides and padding. *)
Theorem C83_pool_contents : forall l, fl_class l = str "MaxPooling2D" -> In (fl_padding l) [str "valid"; str "same"] ->
  exists o, f_layer l = Ok [o] /\ fo_type o = str "MAXPOOLING_2D_F" /\ fo_inputs o = [] /\
    has_attr o (str "strides") (map Some (fl_strides l)) /\ has_attr o (str "pool_size") (map Some (fl_pool l)) /\
    exists p, has_attr o (str "padding") [Some p] /\ (p = 0 <-> fl_padding l = str "valid") /\ (p = 1 <-> fl_padding l = str "same").
Proof.
  intros l EC HP. rewrite (layer_kind l SPool (or_introl EC)). unfold f_pool. eexists. split; [reflexivity|].
  do 2 (split; [reflexivity|]). split; [eexists; split; [left; reflexivity|split; reflexivity]|]. split; [eexists; split; [right; left; reflexivity|split; reflexivity]|].
  exists (pad_code (fl_padding l)). split; [eexists; split; [right; right; left; reflexivity|split; reflexivity]|].
  destruct HP as [<-|[<-|[]]]; [change (pad_code (str "valid")) with 0|change (pad_code (str "same")) with 1]; split; split; congruence || discriminate || reflexivity.
Qed.
(** An LSTM: fifteen nodes.  The twelve per-gate nodes named kernel/input … bias/output hold the single integer 0 whatever the weights;
    the weights are in the three "complete" nodes, kernels transposed.  Units, return_sequences and the number of steps are attributes. *)
Theorem C83_lstm_contents : forall l dtw dtu dtb n m u K R b s0 s1 s2, fl_class l = str "LSTM" ->
  fl_weights l = [A2 dtw n m K; A2 dtu u m R; A1 dtb b] -> rect n m K -> rect u m R -> fl_batch l = Some [s0; s1; s2] ->
  exists o gates tk tr, f_layer l = Ok [o] /\ fo_type o = str "LSTM_F" /\
    fo_inputs o = gates ++ [mkfn (str "kernel/complete") dtw [m; n] (A2 dtw m n tk); mkfn (str "recurrent_kernel/complete") dtu [m; u] (A2 dtu m u tr);
                            mkfn (str "bias/complete") dtb [length b] (A1 dtb b)] /\
    transposed K tk n m /\ transposed R tr u m /\
    map fn_name gates = flat_map (fun p => map (fun g => p ++ str "/" ++ g) [str "input"; str "forget_gate"; str "cell"; str "output"]) [str "kernel"; str "recurrent_kernel"; str "bias"] /\
    (forall g, In g gates -> fn_shape g = [1%nat] /\ fn_data g = A1 (str "int64") [0%Q]) /\
    has_attr o (str "units") [Some (fl_units l)] /\ has_attr o (str "return_sequences") [Some (if fl_return_seq l then 1 else 0)] /\ has_attr o (str "steps") [s1].
Proof.
  intros l dtw dtu dtb n m u K R b s0 s1 s2 EC EW [LK _] [LR _] EB. rewrite (layer_kind l SLstm (or_introl EC)). unfold f_lstm. rewrite EW, EB.
  set (ws := [A2 dtw n m K; A2 dtu u m R; A1 dtb b]).
  assert (E0 : py_index ws 0 = Ok (A2 dtw n m K)) by (apply py_index_in_range; [lia|reflexivity]).
  assert (E1 : py_index ws 1 = Ok (A2 dtu u m R)) by (apply py_index_in_range; [lia|reflexivity]).
  assert (E2 : py_index ws 2 = Ok (A1 dtb b)) by (apply py_index_in_range; [lia|reflexivity]). rewrite E0, E1, E2. cbn [rbind length Nat.eqb negb nth].
  eexists. eexists (map (fun g => build_node zero_gate (str "kernel" ++ str "/" ++ g)) gate_names ++ map (fun g => build_node zero_gate (str "recurrent_kernel" ++ str "/" ++ g)) gate_names ++
    map (fun g => build_node zero_gate (str "bias" ++ str "/" ++ g)) gate_names). do 2 eexists. split; [reflexivity|]. split; [reflexivity|].
  split; [cbn [fo_inputs]; rewrite !app_assoc; reflexivity|]. split; [exact (T_transposed n m K LK)|]. split; [exact (T_transposed u m R LR)|]. split; [reflexivity|].
  split. { intros g Hg. cbn in Hg. repeat (destruct Hg as [<-|Hg]; [split; reflexivity|]). destruct Hg. }
  split; [eexists; split; [left; reflexivity|split; reflexivity]|]. split; [eexists; split; [right; left; reflexivity|split; reflexivity]|].
  eexists; split; [right; right; left; reflexivity|split; reflexivity].
Qed.

(** ** The file determines the model *)
(** layers as Keras makes them *)
Definition keras_made (l : flayer) (s : supported) : Prop :=
  match s with
  | SDense => (exists dt n k K dt' b, fl_weights l = [A2 dt n k K; A1 dt' b] /\ rect n k K /\ length b = k) /\ exists a, fl_act l = AFun a
  | SLstm => (exists dt n m K dt' u R dt'' b, fl_weights l = [A2 dt n m K; A2 dt' u m R; A1 dt'' b] /\ rect n m K /\ rect u m R) /\ exists a b c, fl_batch l = Some [a; b; c]
  | SConv => (exists w b, fl_weights l = [w; b]) /\ (exists a, fl_act l = AFun a) /\ In (fl_padding l) [str "valid"; str "same"]
  | SPool => In (fl_padding l) [str "valid"; str "same"]
  | _ => True
  end.
(** what two layers with the same operators have in common *)
Definition same_layer (s : supported) (l l' : flayer) : Prop :=
  match s with
  | SDense => fl_name l = fl_name l' /\ fl_weights l = fl_weights l' /\ fl_act l = fl_act l'
  | SLstm => fl_weights l = fl_weights l' /\ fl_units l = fl_units l' /\ fl_return_seq l = fl_return_seq l' /\
             option_map (fun s => nth 1 s None) (fl_batch l) = option_map (fun s => nth 1 s None) (fl_batch l')
  | SConv => fl_weights l = fl_weights l' /\ fl_strides l = fl_strides l' /\ fl_padding l = fl_padding l' /\
             exists a a', fl_act l = AFun a /\ fl_act l' = AFun a' /\ upper a = upper a'
  | SPool => fl_strides l = fl_strides l' /\ fl_pool l = fl_pool l' /\ fl_padding l = fl_padding l'
  | _ => True
  end.
Lemma rect_ext n k m m' : rect n k m -> rect n k m' -> (forall i j, (i < n)%nat -> (j < k)%nat -> ent m i j = ent m' i j) -> m = m'.
Proof.
  intros [L R] [L' R'] E. apply (nth_ext _ _ [] []); [congruence|]. intros i Hi. rewrite L in Hi.
  assert (R1 : length (nth i m []) = k) by (apply R, nth_In; lia). assert (R2 : length (nth i m' []) = k) by (apply R', nth_In; lia).
  apply (nth_ext _ _ 0%Q 0%Q); [congruence|]. intros j Hj. apply (E i j); lia.
Qed.
Lemma T_inj n k m m' : rect n k m -> rect n k m' ->
  map (fun j => map (fun r => nth j r 0%Q) m) (seq 0 k) = map (fun j => map (fun r => nth j r 0%Q) m') (seq 0 k) -> m = m'.
Proof.
  intros R R' E. apply (rect_ext n k); [exact R|exact R'|]. intros i j Hi Hj.
  destruct (T_transposed n k m (proj1 R)) as (_ & _ & T). destruct (T_transposed n k m' (proj1 R')) as (_ & _ & T'). rewrite <- (T i j Hi Hj), <- (T' i j Hi Hj). now rewrite E.
Qed.
Lemma map_Some_inj {A} (x y : list A) : map Some x = map Some y -> x = y.
Proof. revert y. induction x as [|a x IH]; intros [|b y] E; try discriminate E; [reflexivity|]. cbn [map] in E. f_equal; [congruence|]. apply IH. congruence. Qed.
Lemma pad_inj p q : In p [str "valid"; str "same"] -> In q [str "valid"; str "same"] -> pad_code p = pad_code q -> p = q.
Proof. intros [<-|[<-|[]]] [<-|[<-|[]]] E; first [reflexivity|exfalso; vm_compute in E; discriminate E]. Qed.
Lemma app_inv_same {A} (x y u v : list A) : length x = length u -> x ++ y = u ++ v -> x = u /\ y = v.
Proof. revert u. induction x as [|a x IH]; intros [|b u] L E; try discriminate L; [now split|]. cbn [app] in E. destruct (IH u) as [E1 E2]; [now injection L|congruence|]. split; [congruence|exact E2]. Qed.
Definition op_count (s : supported) : nat := match s with SDense | SConv => 2 | SSkip => 0 | _ => 1 end.
Lemma layer_count l s p : kind_of l s -> keras_made l s -> f_layer l = Ok p -> length p = op_count s.
Proof.
  intros Kd M. rewrite (layer_kind l s Kd). destruct s; cbn [keras_made op_count] in *; intros E.
  - destruct M as ((dt & n & k & K & dt' & b & EW & _) & a & EA). unfold f_dense, dense_bias in E. rewrite EW, EA in E. assert (length p = 2%nat) by (cbn in E; injection E as <-; reflexivity). assumption.
  - destruct M as ((dt & n & m & K & dt' & u & R & dt'' & b & EW & _) & s0 & s1 & s2 & EB). unfold f_lstm in E. rewrite EW, EB in E. cbn in E. injection E as <-. reflexivity.
  - destruct M as ((w & b & EW) & _). unfold f_conv in E. rewrite EW in E. cbn in E. injection E as <-. reflexivity.
  - injection E as <-. reflexivity.
  - injection E as <-. reflexivity.
  - injection E as <-. reflexivity.
Qed.
Lemma layer_determines l l' s : kind_of l s -> kind_of l' s -> keras_made l s -> keras_made l' s -> f_layer l = f_layer l' -> same_layer s l l'.
Proof.
  intros Kd Kd' M M'. rewrite (layer_kind l s Kd), (layer_kind l' s Kd'). destruct s; cbn [keras_made same_layer] in *; intros E; try exact Logic.I.
  - destruct M as ((dt & n & k & K & dt' & b & EW & RK & LB) & a & EA). destruct M' as ((dt2 & n2 & k2 & K2 & dt2' & b2 & EW2 & RK2 & LB2) & a2 & EA2).
    unfold f_dense, dense_bias in E. rewrite EW, EA, EW2, EA2 in E. cbn [py_index rbind] in E.
    change (py_index [A2 dt n k K; A1 dt' b] 0) with (Ok (A2 dt n k K)) in E. change (py_index [A2 dt2 n2 k2 K2; A1 dt2' b2] 0) with (Ok (A2 dt2 n2 k2 K2)) in E. cbn [rbind] in E.
    unfold build_node in E. cbn [arr_T arr_dtype arr_shape] in E. injection E as E1 E2 E3 E4 E5 E6 E7 E8 E9 E10 E11 E12. subst.
    rewrite EW, EW2, EA, EA2. split; [exact E1|]. split; [|reflexivity]. f_equal. f_equal. exact (T_inj _ _ K K2 RK RK2 E9).
  - destruct M as ((dt & n & m & K & dt' & u & R & dt'' & b & EW & RK & RR) & s0 & s1 & s2 & EB). destruct M' as ((dt2 & n2 & m2 & K2 & dt2' & u2 & R2 & dt2'' & b2 & EW2 & RK2 & RR2) & t0 & t1 & t2 & EB2).
    unfold f_lstm in E. rewrite EW, EB, EW2, EB2 in E.
    set (ws := [A2 dt n m K; A2 dt' u m R; A1 dt'' b]) in E. set (ws2 := [A2 dt2 n2 m2 K2; A2 dt2' u2 m2 R2; A1 dt2'' b2]) in E.
    change (py_index ws 0) with (Ok (A2 dt n m K)) in E. change (py_index ws 1) with (Ok (A2 dt' u m R)) in E. change (py_index ws 2) with (Ok (A1 dt'' b)) in E.
    change (py_index ws2 0) with (Ok (A2 dt2 n2 m2 K2)) in E. change (py_index ws2 1) with (Ok (A2 dt2' u2 m2 R2)) in E. change (py_index ws2 2) with (Ok (A1 dt2'' b2)) in E.
    cbn [rbind length Nat.eqb negb nth] in E. unfold build_node in E. cbn [arr_T arr_dtype arr_shape] in E.
    pose proof (f_equal (fun r => match r with Ok [o] => map fn_data (skipn 12 (fo_inputs o)) | _ => [] end) E) as FI.
    pose proof (f_equal (fun r => match r with Ok [o] => map fa_value (fo_attrs o) | _ => [] end) E) as FA. clear E.
    cbn -[seq] in FI, FA. injection FI as I1 I2 I3 I4 I5 I6 I7 I8 I9 I10. injection FA as A1' A2' A3'. subst. rewrite EW, EW2, EB, EB2. cbn [option_map nth].
    split. { f_equal; [f_equal; exact (T_inj _ _ K K2 RK RK2 I4)|]. f_equal. f_equal. exact (T_inj _ _ R R2 RR RR2 I8). }
    split; [exact A1'|]. split; [|reflexivity]. destruct (fl_return_seq l), (fl_return_seq l'); congruence.
  - destruct M as ((w & b & EW) & (a & EA) & HP). destruct M' as ((w2 & b2 & EW2) & (a2 & EA2) & HP2).
    unfold f_conv in E. rewrite EW, EA, EW2, EA2 in E.
    change (py_index [w; b] 0) with (Ok w) in E. change (py_index [w; b] 1) with (Ok b) in E. change (py_index [w2; b2] 0) with (Ok w2) in E. change (py_index [w2; b2] 1) with (Ok b2) in E. cbn [rbind act_name] in E.
    pose proof (f_equal (fun r => match r with Ok [o; _] => map fn_data (fo_inputs o) | _ => [] end) E) as FI.
    pose proof (f_equal (fun r => match r with Ok [o; _] => map fa_value (fo_attrs o) | _ => [] end) E) as FA.
    pose proof (f_equal (fun r => match r with Ok [_; o] => fo_type o | _ => [] end) E) as FT. clear E.
    cbn [fo_inputs fo_attrs fo_type map build_node fn_data fa_value] in FI, FA, FT. apply app_inv_tail in FT.
    assert (map Some (fl_strides l) = map Some (fl_strides l')) by congruence. assert (pad_code (fl_padding l) = pad_code (fl_padding l')) by congruence.
    split; [congruence|]. split; [now apply map_Some_inj|]. split; [now apply pad_inj|]. exists a, a2. auto.
  - pose proof (f_equal (fun r => match r with Ok [o] => map fa_value (fo_attrs o) | _ => [] end) E) as FA. clear E. unfold f_pool in FA.
    cbn [fo_attrs map fa_value] in FA.
    assert (map Some (fl_strides l) = map Some (fl_strides l')) by congruence. assert (pad_code (fl_padding l) = pad_code (fl_padding l')) by congruence.
    assert (map Some (fl_pool l) = map Some (fl_pool l')) by congruence.
    split; [now apply map_Some_inj|]. split; [now apply map_Some_inj|]. now apply pad_inj.
Qed.
(** Two models of the same layer kinds with the same file have the same weights, activations (conv: up to case), strides, windows and
    paddings, units, return_sequences and steps. *)
Theorem C83_determines : forall ss ls ls' g, Forall2 kind_of ls ss -> Forall2 kind_of ls' ss -> Forall2 keras_made ls ss -> Forall2 keras_made ls' ss ->
  f_convert ls = Ok g -> f_convert ls' = Ok g -> length ls = length ls' /\ forall i s l l', nth_error ss i = Some s -> nth_error ls i = Some l -> nth_error ls' i = Some l' -> same_layer s l l'.
Proof.
  intros ss ls ls' g Kd Kd' M M' E E'. apply convert_mapM in E, E'. destruct E as (xs & E & EG), E' as (xs' & E' & EG'). rewrite EG in EG'. clear EG g.
  revert ls' xs xs' Kd' M M' E E' EG'. induction Kd as [|l s ls ss Kl Kd IH]; intros ls' xs xs' Kd' M M' E E' EG.
  - inversion Kd'; subst. split; [reflexivity|]. intros [|i] s l l' C; discriminate C.
  - inversion Kd' as [|l' s' ls2 ss' Kl' Kd2]; subst. inversion M as [|? ? ? ? Ml M2]; subst. inversion M' as [|? ? ? ? Ml' M2']; subst.
    cbn [mapM] in E, E'. destruct (f_layer l) as [p|] eqn:EP; cbn [rbind] in E; [|discriminate E]. destruct (f_layer l') as [p'|] eqn:EP'; cbn [rbind] in E'; [|discriminate E'].
    destruct (mapM f_layer ls) as [ys|] eqn:EY; cbn [rbind] in E; [|discriminate E]. destruct (mapM f_layer ls2) as [ys'|] eqn:EY'; cbn [rbind] in E'; [|discriminate E'].
    assert (xs = p :: ys) by congruence. assert (xs' = p' :: ys') by congruence. subst xs xs'. cbn [concat] in EG.
    apply app_inv_same in EG; [|rewrite (layer_count l s p), (layer_count l' s p'); auto]. destruct EG as [-> EG].
    destruct (IH ls2 ys ys' Kd2 M2 M2' eq_refl EY' EG) as [L D]. split; [cbn; congruence|]. intros [|i] s0 l0 l0' C1 C2 C3; cbn [nth_error] in *.
    + replace s0 with s by congruence. replace l0 with l by congruence. replace l0' with l' by congruence. apply layer_determines; auto. congruence.
    + exact (D i s0 l0 l0' C1 C2 C3).
Qed.
(** What the file does not say: an LSTM's activation and name, a convolution's name, and any other option of any layer (recurrent
    activation, go_backwards, dilation, groups, data format, ...): models differing only there get the same file. *)
Definition forget (l : flayer) (act : kact) (name other : chars) : flayer :=
  mkfl (fl_class l) name (fl_weights l) act (fl_units l) (fl_strides l) (fl_padding l) (fl_pool l) (fl_return_seq l) (fl_batch l) other.
Theorem C83_lost : forall l s act name other, kind_of l s -> s <> SDense -> (s = SConv -> act = fl_act l) ->
  forall ls ls', f_convert (ls ++ forget l act name other :: ls') = f_convert (ls ++ l :: ls').
Proof.
  intros l s act name other Kd N HA ls ls'. assert (E : f_layer (forget l act name other) = f_layer l).
  { assert (Kd' : kind_of (forget l act name other) s) by exact Kd. rewrite (layer_kind _ s Kd), (layer_kind _ s Kd'). destruct s; try reflexivity; [contradiction|].
    unfold f_conv, forget. cbn [fl_weights fl_act fl_strides fl_padding]. now rewrite (HA eq_refl). }
  unfold f_convert. assert (X : mapM f_layer (ls ++ forget l act name other :: ls') = mapM f_layer (ls ++ l :: ls')).
  { induction ls as [|a ls IH]; cbn [app mapM]; [now rewrite E|]. now rewrite IH. }
  now rewrite X.
Qed.
(** Layers whose class name merely contains a known one are converted as that one: transposed, depthwise and separable convolutions become
    ordinary convolutions with the same arrays (of a separable one, the pointwise kernel becomes the bias). *)
Definition as_class (l : flayer) (c : chars) : flayer :=
  mkfl c (fl_name l) (fl_weights l) (fl_act l) (fl_units l) (fl_strides l) (fl_padding l) (fl_pool l) (fl_return_seq l) (fl_batch l) (fl_other l).
Theorem C83_lookalikes : forall l c, In c [str "Conv2DTranspose"; str "DepthwiseConv2D"; str "SeparableConv2D"] ->
  forall ls ls', f_convert (ls ++ as_class l c :: ls') = f_convert (ls ++ as_class l (str "Conv2D") :: ls').
Proof.
  intros l c Hc ls ls'. assert (E : f_layer (as_class l c) = f_layer (as_class l (str "Conv2D"))) by (destruct Hc as [<-|[<-|[<-|[]]]]; reflexivity).
  unfold f_convert. assert (X : mapM f_layer (ls ++ as_class l c :: ls') = mapM f_layer (ls ++ as_class l (str "Conv2D") :: ls')).
  { induction ls as [|a ls IH]; cbn [app mapM]; [now rewrite E|]. now rewrite IH. }
  now rewrite X.
Qed.

(** A class name with DENSE in it is a dense layer, whatever else it contains; else one with LSTM in it is an LSTM layer. *)
Theorem C83_name_precedence : forall l pre mid post, fl_class l = pre ++ str "Dense" ++ mid ++ str "LSTM" ++ post \/ fl_class l = pre ++ str "LSTM" ++ mid ++ str "Dense" ++ post ->
  f_convert [l] = f_convert [as_class l (str "Dense")].
Proof.
  assert (CP : forall p n m, contains p (n ++ p ++ m) = true).
  { assert (P : forall q r, prefix_of q (q ++ r) = true) by (intros q r; induction q as [|a q IH]; [reflexivity|]; cbn [app prefix_of]; rewrite Ascii.eqb_refl; exact IH).
    intros p n m. induction n as [|a n IH].
    - cbn [app]. destruct p as [|c p]; [destruct m; reflexivity|]. pose proof (P (c :: p) m) as H. cbn [app] in H |- *. cbn [contains]. rewrite H. reflexivity.
    - cbn [app contains]. rewrite IH. apply orb_true_r. }
  intros l pre mid post H. assert (E : contains (str "DENSE") (upper (fl_class l)) = true).
  { destruct H as [-> | ->]; unfold upper; rewrite !map_app.
    - apply (CP (str "DENSE") (map upper_c pre)).
    - rewrite (app_assoc (map upper_c pre)), (app_assoc _ (map upper_c mid)). apply (CP (str "DENSE")). }
  unfold f_convert. cbn [mapM]. assert (F : f_layer l = f_layer (as_class l (str "Dense"))) by (unfold f_layer; rewrite E; reflexivity). now rewrite F.
Qed.

(** ** A concrete case *)
Definition kd (cls name : chars) (w : list arr) (a : chars) : flayer := mkfl cls name w (AFun a) 0 [] (str "") [] false None [].
Definition e83_model : list flayer :=
  [kd (str "InputLayer") (str "in") [] (str "linear");
   kd (str "Dense") (str "d1") [A2 (str "float32") 2 3 [[1; 2; 3]; [4; 5; 6]]%Q; A1 (str "float32") [1; 0; -1]%Q] (str "relu");
   kd (str "Dropout") (str "drop") [] (str "linear");
   kd (str "Dense") (str "d2") [A2 (str "float32") 3 1 [[1]; [-1]; [2]]%Q; A1 (str "float32") [5]%Q] (str "linear")].
Definition e83_acts : acts := fun a => if chars_eqb a (str "relu") then Some (map (fun x => if Qle_bool x 0 then 0%Q else x)) else if chars_eqb a (str "linear") then Some (fun x => x) else None.
Theorem C83_example : exists g F, f_convert e83_model = Ok g /\ means e83_acts 2 e83_model F /\
  map fo_type g = [str "FULLY_CONNECTED_F"; str "relu"; str "FULLY_CONNECTED_F"; str "linear"] /\ Forall2 (fun x y => x == y)%Q (F [1; 1]%Q) [20]%Q /\
  Forall2 kind_of e83_model [SSkip; SDense; SSkip; SDense] /\ Forall2 keras_made e83_model [SSkip; SDense; SSkip; SDense].
Proof.
  assert (R1 : forall a, In a [str "relu"; str "linear"] -> ~ reserved a) by (intros a [<-|[<-|[]]] [C|C]; discriminate C).
  do 2 eexists. split; [reflexivity|]. split.
  { apply m_skip; [left; reflexivity|]. eapply m_dense; try reflexivity; [apply R1; left; reflexivity|intros y Hy; now rewrite map_length|].
    apply m_skip; [right; left; reflexivity|]. eapply m_dense; try reflexivity; [apply R1; right; left; reflexivity|intros y Hy; exact Hy|]. apply m_nil. }
  split; [reflexivity|]. split; [|split].
  - constructor; [vm_compute; reflexivity|constructor].
  - unfold e83_model. constructor; [right; split; reflexivity|]. constructor; [left; reflexivity|]. constructor; [left; reflexivity|]. constructor; [left; reflexivity|constructor].
  - unfold e83_model. repeat constructor.
    + do 6 eexists. split; [reflexivity|]. split; [split; [reflexivity|]|reflexivity]. intros r [<-|[<-|[]]]; reflexivity.
    + eexists; reflexivity.
    + do 6 eexists. split; [reflexivity|]. split; [split; [reflexivity|]|reflexivity]. intros r [<-|[<-|[<-|[]]]]; reflexivity.
    + eexists; reflexivity.
Qed.
Print Assumptions C83_function.
Print Assumptions C83_missing_bias.
Print Assumptions C83_converts.
Print Assumptions C83_unsupported.
Print Assumptions C83_dense_contents.
Print Assumptions C83_conv_contents.
Print Assumptions C83_pool_contents.
Print Assumptions C83_lstm_contents.
Print Assumptions C83_determines.
Print Assumptions C83_lost.
Print Assumptions C83_lookalikes.
Print Assumptions C83_example.
