(** C44 (exported networks are well formed) and C49 (configuration presets). *)
From Verif Require Import Base BaseProofs DtypeModel DtypeProofs EngineModel EngineProofs PropEngine BuildModel.
Open Scope Z_scope.
Open Scope list_scope.

(** ** Specification of what one Keras layer contributes *)
Definition no_operator_activations : list chars := [str "LINEAR"; str "SOFTMAX"; str "RELU"; str "RELU6"].
Definition table_activations : list chars := [str "TANH"; str "SIGMOID"].
(** the operator types exported for an activation function called [act], and for a layer *)
Inductive act_types (act : chars) : list chars -> Prop :=
| at_none : In (upper act) no_operator_activations -> act_types act []
| at_lut : In (upper act) table_activations -> act_types act [upper act ++ str "LUT"]
| at_own : ~ In (upper act) no_operator_activations -> ~ In (upper act) table_activations -> act_types act [upper act].
Inductive layer_types : klayer -> list chars -> Prop :=
| lt_dense name act ts : act_types act ts -> layer_types (LDense name act) (str "FULLY_CONNECTED" :: ts)
| lt_lstm name : layer_types (LLstm name) [str "LSTM"]
| lt_dropout : layer_types LDropout []
| lt_input : layer_types LInput [].
Definition emits (ls : list klayer) (ts : list chars) : Prop := exists tss, Forall2 layer_types ls tss /\ ts = concat tss.

(** ** Proof infrastructure *)
Lemma mem_in s l : mem s l = true <-> In s l.
Proof.
  unfold mem. rewrite existsb_exists. split.
  - intros (x & Hx & E). apply chars_eqb_eq in E. now subst.
  - intros H. exists s. split; [exact H|apply chars_eqb_refl].
Qed.
Lemma mem_not_in s l : mem s l = false <-> ~ In s l.
Proof. rewrite <- mem_in. destruct (mem s l); intuition congruence. Qed.
Lemma activation_op_types act a o :
  act_types act (match activation_op act a o with None => [] | Some p => [o_type p] end).
Proof.
  unfold activation_op. destruct (mem (upper act) SKIP_FUNCTIONS) eqn:A.
  - apply mem_in in A. now constructor.
  - apply mem_not_in in A. destruct (mem (upper act) LUT_FUNCTIONS) eqn:B; cbn [o_type].
    + apply mem_in in B. now apply at_lut.
    + apply mem_not_in in B. now apply at_own.
Qed.
Definition one_layer (c : qcfg) (l : klayer) (prev : qresult) (next : nat) : res (option (qresult * nat)) :=
  do q <- get_layer_quantizer l c;
  match q with
  | None => Ok None
  | Some q => do x <- match q with
                      | QDense lc name act => dense_quantize lc name act prev next
                      | QLstm name => lstm_quantize name prev next
                      end; Ok (Some x)
  end.
Fixpoint run (c : qcfg) (ls : list klayer) (prev : qresult) (next : nat) : res (list qresult) :=
  match ls with
  | [] => Ok []
  | l :: r => do o <- one_layer c l prev next;
              match o with
              | None => run c r prev next
              | Some x => do rs <- run c r (fst x) (snd x); Ok (fst x :: rs)
              end
  end.
Lemma quantize_layers_run c ls : forall prev acc next,
  quantize_layers c ls prev acc next = do rs <- run c ls prev next; Ok (rev rs ++ acc).
Proof.
  induction ls as [|l ls IH]; intros prev acc next; [reflexivity|]. cbn [quantize_layers run]. unfold one_layer.
  destruct (get_layer_quantizer l c) as [[q|]|e]; cbn [rbind]; [|apply IH|reflexivity].
  destruct (match q with QDense lc name act => dense_quantize lc name act prev next | QLstm name => lstm_quantize name prev next end)
    as [x|e]; cbn [rbind]; [|reflexivity].
  rewrite IH. destruct (run c ls (fst x) (snd x)) as [rs|e]; cbn [rbind]; [|reflexivity].
  cbn [rev]. now rewrite <- app_assoc.
Qed.
Definition own (o : oper) : list nat := tl (o_in o) ++ o_out o.
(** operators fed by node [x] and delivering node [y] *)
Inductive chained : nat -> list oper -> nat -> Prop :=
| ch_nil x : chained x [] x
| ch_cons x y z o ops : hd_error (o_in o) = Some x -> o_out o = [y] -> chained y ops z -> chained x (o :: ops) z.
Lemma chained_app x a y b z : chained x a y -> chained y b z -> chained x (a ++ b) z.
Proof. induction 1; intros H2; [exact H2|]. cbn. econstructor; eauto. Qed.
Lemma chained_nth x ops y : chained x ops y -> forall i a b,
  nth_error ops i = Some a -> nth_error ops (S i) = Some b -> exists n, o_out a = [n] /\ hd_error (o_in b) = Some n.
Proof.
  induction 1 as [x|x y z o ops A B H IH]; intros i a b Ha Hb; [now destruct i|].
  destruct i as [|i]; cbn in Ha, Hb.
  - injection Ha as <-. inversion H; subst; [discriminate|]. cbn in Hb. injection Hb as <-. eauto.
  - eapply IH; eauto.
Qed.
Lemma chained_then x m y d : chained x m y -> hd_error (o_in d) = Some y -> forall i a b,
  nth_error (m ++ [d]) i = Some a -> nth_error (m ++ [d]) (S i) = Some b -> exists n, o_out a = [n] /\ hd_error (o_in b) = Some n.
Proof.
  intros H Hd. induction H as [x|x z w o ops A B H IH]; intros i a b Ha Hb; [destruct i as [|[|]]; discriminate|].
  destruct i as [|i]; [|exact (IH Hd i a b Ha Hb)]. cbn in Ha, Hb. injection Ha as <-.
  exists z. split; [exact B|]. inversion H; subst; cbn in Hb; injection Hb as <-; assumption.
Qed.
Definition sound_step (x : nat) (r : qresult) (next next' : nat) : Prop :=
  exists y, r_out r = Some y /\ r_ops r <> [] /\ chained x (r_ops r) y /\ (next <= next')%nat /\
    concat (map own (r_ops r)) = seq next (next' - next).
Lemma one_layer_step c l prev next r next' x : one_layer c l prev next = Ok (Some (r, next')) -> r_out prev = Some x ->
  sound_step x r next next' /\ layer_types l (map o_type (r_ops r)).
Proof.
  intros E P. unfold one_layer in E. destruct l as [name act|name| | |]; cbn [get_layer_quantizer rbind] in E; try discriminate.
  - unfold dense_quantize in E. destruct (layer_cfg c name) as [d|q|]; cbn [rbind] in E; try discriminate.
    destruct (check_dtypes d) as [[]|e]; cbn [rbind] in E; [|discriminate]. rewrite P in E.
    destruct (d_opt d); cbn [rbind] in E; [discriminate|].
    assert (T := activation_op_types act (next + 2) (next + 3)).
    destruct (activation_op act (next + 2) (next + 3)) as [a|] eqn:A.
    + assert (Ea : o_in a = [(next + 2)%nat] /\ o_out a = [(next + 3)%nat]).
      { unfold activation_op in A. destruct (mem (upper act) SKIP_FUNCTIONS); [discriminate|]. injection A as <-. now split. }
      destruct Ea as [E1 E2]. injection E as <- <-. split; [|cbn; now constructor].
      exists (next + 3)%nat. cbn [r_out r_ops]. split; [reflexivity|]. split; [discriminate|]. split.
      * econstructor; [reflexivity|reflexivity|]. econstructor; [rewrite E1; reflexivity|exact E2|constructor].
      * split; [lia|]. cbn [map concat]. unfold own. rewrite E1, E2. cbn [o_in o_out tl app].
        replace (next + 4 - next)%nat with 4%nat by lia. cbn [seq]. repeat (f_equal; try lia).
    + injection E as <- <-. split; [|cbn; now constructor].
      exists (next + 2)%nat. cbn [r_out r_ops]. split; [reflexivity|]. split; [discriminate|]. split.
      * econstructor; [reflexivity|reflexivity|]. constructor.
      * split; [lia|]. cbn [map concat own o_in o_out tl app].
        replace (next + 3 - next)%nat with 3%nat by lia. cbn [seq]. repeat (f_equal; try lia).
  - unfold lstm_quantize in E. rewrite P in E. cbn [rbind] in E. injection E as <- <-. split; [|cbn; constructor].
    exists (next + 31)%nat. cbn [r_out r_ops]. split; [reflexivity|]. split; [discriminate|]. split.
    + econstructor; [reflexivity|reflexivity|constructor].
    + split; [lia|]. cbn [map concat own o_in o_out tl]. rewrite app_nil_r.
      replace (next + 32 - next)%nat with (31 + 1)%nat by lia. now rewrite seq_app.
Qed.
Lemma one_layer_none c l prev next : one_layer c l prev next = Ok None -> layer_types l [].
Proof.
  intros E. unfold one_layer in E. destruct l as [name act|name| | |]; cbn [get_layer_quantizer rbind] in E; try discriminate; try constructor.
  - destruct (dense_quantize _ _ _ _ _); discriminate.
  - destruct (lstm_quantize _ _ _); discriminate.
Qed.
Lemma run_spec c ls : forall prev next rs x, run c ls prev next = Ok rs -> r_out prev = Some x ->
  exists y k, chained x (network rs) y /\ r_out (last rs prev) = Some y /\
    concat (map own (network rs)) = seq next k /\ emits ls (map o_type (network rs)) /\
    (rs <> [] -> r_ops (last rs prev) <> []).
Proof.
  induction ls as [|l ls IH]; intros prev next rs x E P; cbn [run] in E.
  - injection E as <-. exists x, 0%nat. cbn. repeat split; try constructor; [exact P| |congruence].
    exists []. split; [constructor|reflexivity].
  - destruct (one_layer c l prev next) as [[[r next']|]|e] eqn:O; cbn [rbind] in E; [| |discriminate].
    + cbn [fst snd] in E. destruct (run c ls r next') as [rs'|e] eqn:R; cbn [rbind] in E; [|discriminate]. injection E as <-.
      destruct (one_layer_step _ _ _ _ _ _ _ O P) as ((y & Ey & Ne & Cy & Le & Oy) & T).
      destruct (IH _ _ _ _ R Ey) as (z & k & Cz & Ez & Oz & (tss & F & Et) & Nz).
      exists z, ((next' - next) + k)%nat.
      assert (LA : last (r :: rs') prev = last rs' r).
      { clear. revert r prev. induction rs' as [|a l' IH]; intros r prev; [reflexivity|].
        change (last (r :: a :: l') prev) with (last (a :: l') prev). rewrite IH. change (last (a :: l') r) with (last (a :: l') r).
        symmetry. apply IH. }
      unfold network in *. cbn [map concat]. split; [now apply chained_app with y|]. split; [now rewrite LA|]. split.
      * rewrite map_app, concat_app, Oy, Oz, seq_app. f_equal. f_equal. lia.
      * split.
        -- exists (map o_type (r_ops r) :: tss). split; [now constructor|]. rewrite map_app. cbn [concat]. now rewrite Et.
        -- intros _. rewrite LA. destruct rs' as [|a l']; [exact Ne|]. now apply Nz.
    + destruct (IH _ _ _ _ E P) as (z & k & Cz & Ez & Oz & (tss & F & Et) & Nz).
      exists z, k. split; [exact Cz|]. split; [exact Ez|]. split; [exact Oz|]. split; [|exact Nz].
      exists ([] :: tss). split; [constructor; [eapply one_layer_none; eauto|exact F]|exact Et].
Qed.
Lemma chained_last x ops y d : chained x ops y -> ops <> [] -> o_out (last ops d) = [y].
Proof.
  induction 1 as [x|x y z o ops A B H IH]; intros N; [congruence|].
  destruct ops as [|p ops]; [inversion H; subst; exact B|].
  change (last (o :: p :: ops) d) with (last (p :: ops) d). apply IH. discriminate.
Qed.
Lemma py_last {A} (l : list A) d : l <> [] -> py_index l (-1) = Ok (last l d).
Proof.
  intros N. destruct (exists_last N) as (l' & a & ->). rewrite last_last. unfold py_index.
  rewrite app_length. cbn [length]. 
  replace (-1 <? 0) with true by reflexivity.
  destruct (Z.ltb_spec (-1 + Z.of_nat (length l' + 1)) 0); [lia|]. cbn [orb].
  destruct (Z.leb_spec (Z.of_nat (length l' + 1)) (-1 + Z.of_nat (length l' + 1))); [lia|].
  rewrite nth_error_app2 by lia.
  replace (Z.to_nat (-1 + Z.of_nat (length l' + 1)) - length l')%nat with 0%nat by lia. reflexivity.
Qed.

Lemma dequantize_after c ls q0 next rs x y : run c ls q0 next = Ok rs -> chained x (network rs) y ->
  (rs <> [] -> r_ops (last rs q0) <> []) -> (rs = [] -> exists o, r_ops q0 = [o] /\ o_out o = [x]) ->
  dequantize_quantize (last rs q0) = Ok (mkqr [mkoper (str "DEQUANTIZE") (str "DEQUANTIZE") [y] []] None).
Proof.
  intros R Cy N Q. unfold dequantize_quantize. set (ops := r_ops (last rs q0)) in *.
  assert (Ne : ops <> []).
  { destruct rs as [|a l]; [|apply N; discriminate]. destruct (Q eq_refl) as (o & E & _). unfold ops. cbn. rewrite E. discriminate. }
  assert (Lo : o_out (last ops (mkoper [] [] [] [])) = [y]).
  { destruct rs as [|a l]; [destruct (Q eq_refl) as (o & E & Eo); inversion Cy; subst; unfold ops; cbn; rewrite E; exact Eo|].
    assert (X : a :: l <> []) by discriminate. destruct (exists_last X) as (l' & b & Eq). 
    unfold ops. rewrite Eq in Cy |- *. rewrite last_last.
    assert (Hb : r_ops b <> []) by (unfold ops in Ne; rewrite Eq, last_last in Ne; exact Ne).
    unfold network in Cy. rewrite map_app, concat_app in Cy. cbn [map concat] in Cy. rewrite app_nil_r in Cy.
    assert (Z := chained_last _ _ _ (mkoper [] [] [] []) Cy). rewrite <- Z.
    - f_equal. destruct (exists_last Hb) as (p & o & ->). now rewrite app_assoc, !last_last.
    - intros Hn. apply app_eq_nil in Hn as [_ Hn]. contradiction. }
  destruct ops as [|o os] eqn:Eo; [congruence|]. rewrite (py_last _ (mkoper [] [] [] [])) by discriminate.
  cbn [rbind]. rewrite Lo. reflexivity.
Qed.
Lemma build_shape c ls j : build c ls = Ok j ->
  exists mid y k, nj_graph j = mkoper (str "QUANTIZE") (str "QUANTIZE") [] [0%nat] :: mid ++ [mkoper (str "DEQUANTIZE") (str "DEQUANTIZE") [y] []] /\
    chained 0 mid y /\ concat (map own mid) = seq 1 k /\ emits ls (map o_type mid) /\ j = as_json (nj_graph j).
Proof.
  intros E. unfold build, quantize_model, input_quantize in E.
  destruct (parse_dtype (c_quantize c)) as [d|e]; cbn [rbind fst snd] in E; [|discriminate].
  set (q0 := mkqr [mkoper (str "QUANTIZE") (str "QUANTIZE") [] [0%nat]] (Some 0%nat)) in *.
  rewrite quantize_layers_run in E. destruct (run c ls q0 1) as [rs|e] eqn:R; cbn [rbind] in E; [|discriminate].
  destruct (run_spec _ _ _ _ _ 0%nat R eq_refl) as (y & k & Cy & Ey & Oy & T & N).
  assert (L : exists rest, rev rs ++ [q0] = last rs q0 :: rest).
  { destruct rs as [|a l]; [exists []; reflexivity|]. assert (X : a :: l <> []) by discriminate.
    destruct (exists_last X) as (l' & b & ->). rewrite last_last, rev_app_distr. cbn. eauto. }
  destruct L as [rest L]. rewrite L in E. cbn [rbind] in E.
  assert (D := dequantize_after _ _ _ _ _ _ _ R Cy N (fun _ => ex_intro _ _ (conj eq_refl eq_refl))).
  rewrite D in E. cbn [rbind] in E.
  assert (Ej : as_json (network (rev (mkqr [mkoper (str "DEQUANTIZE") (str "DEQUANTIZE") [y] []] None :: last rs q0 :: rest))) = j) by congruence.
  rewrite <- L in Ej. cbn [rev] in Ej. rewrite rev_app_distr, rev_involutive in Ej. cbn [rev app] in Ej.
  assert (G : nj_graph j = mkoper (str "QUANTIZE") (str "QUANTIZE") [] [0%nat] :: network rs ++ [mkoper (str "DEQUANTIZE") (str "DEQUANTIZE") [y] []]).
  { rewrite <- Ej. cbn [nj_graph as_json]. unfold network. cbn [map concat]. rewrite map_app, concat_app. reflexivity. }
  exists (network rs), y, k. split; [exact G|]. split; [exact Cy|]. split; [exact Oy|]. split; [exact T|].
  rewrite <- Ej. reflexivity.
Qed.

(** ** C44 *)
(** The exported graph is the input quantization, then every layer's operators in layer order, then the dequantization, and
    "operators" is its length. *)
Theorem C44_layer_order : forall c ls j, build c ls = Ok j ->
  exists ts, emits ls ts /\ map o_type (nj_graph j) = str "QUANTIZE" :: ts ++ [str "DEQUANTIZE"] /\
    nj_operators j = Z.of_nat (length (nj_graph j)) /\ nj_operators j = 2 + Z.of_nat (length ts).
Proof.
  intros c ls j E. destruct (build_shape _ _ _ E) as (mid & y & k & G & Cm & Om & T & Ej).
  exists (map o_type mid). split; [exact T|]. assert (Lg : length (nj_graph j) = (2 + length mid)%nat).
  { rewrite G. cbn [length]. rewrite app_length. cbn. lia. }
  split; [rewrite G; cbn [map o_type]; now rewrite map_app|].
  assert (Nj : nj_operators j = Z.of_nat (length (nj_graph j))) by (rewrite Ej; reflexivity).
  split; [exact Nj|]. rewrite Nj, Lg, map_length. lia.
Qed.
(** An expected list of types is determined by the layers. *)
Theorem C44_types_determined : forall ls ts ts', emits ls ts -> emits ls ts' -> ts = ts'.
Proof.
  assert (A : forall act a b, act_types act a -> act_types act b -> a = b).
  { intros act a b H1 H2. destruct H1, H2; try reflexivity; try contradiction; exfalso;
    match goal with A : In ?u no_operator_activations, B : In ?u table_activations |- _ =>
      revert A B; generalize u; intros u' A B; cbn in A, B; intuition (subst; discriminate) end. }
  assert (B : forall l a b, layer_types l a -> layer_types l b -> a = b).
  { intros l a b H1 H2. destruct H1; inversion H2; subst; try reflexivity. f_equal. eapply A; eauto. }
  intros ls ts ts' (x & F & ->) (x' & F' & ->). f_equal. revert x' F'.
  induction F as [|l t ls x H F IH]; intros x' F'; inversion F'; subst; [reflexivity|]. f_equal; [eapply B; eauto|eauto].
Qed.
(** Every operator consumes the single output of the operator before it; the first has no input, the last no output. *)
Theorem C44_chain : forall c ls j, build c ls = Ok j ->
  (forall i a b, nth_error (nj_graph j) i = Some a -> nth_error (nj_graph j) (S i) = Some b ->
     exists n, o_out a = [n] /\ hd_error (o_in b) = Some n) /\
  (exists f l, hd_error (nj_graph j) = Some f /\ o_in f = [] /\ nth_error (nj_graph j) (length (nj_graph j) - 1) = Some l /\
     o_out l = [] /\ length (o_in l) = 1%nat).
Proof.
  intros c ls j E. destruct (build_shape _ _ _ E) as (mid & y & k & G & Cm & Om & T & Ej). split.
  - intros i a b Ha Hb. rewrite G in Ha, Hb.
    set (f := mkoper (str "QUANTIZE") (str "QUANTIZE") [] [0%nat]) in *.
    set (d := mkoper (str "DEQUANTIZE") (str "DEQUANTIZE") [y] []) in *.
    destruct i as [|i]; [|eapply (chained_then 0%nat mid y d); eauto].
    cbn in Ha. injection Ha as <-. exists 0%nat. split; [reflexivity|]. inversion Cm; subst; cbn in Hb; injection Hb as <-; [reflexivity|assumption].
  - rewrite G. exists (mkoper (str "QUANTIZE") (str "QUANTIZE") [] [0%nat]), (mkoper (str "DEQUANTIZE") (str "DEQUANTIZE") [y] []).
    split; [reflexivity|]. split; [reflexivity|]. split; [|split; reflexivity].
    cbn [length]. rewrite app_length. cbn [length]. replace (S (length mid + 1) - 1)%nat with (S (length mid)) by lia.
    cbn [nth_error]. rewrite nth_error_app2 by lia. now replace (length mid - length mid)%nat with 0%nat by lia.
Qed.
(** No node object is written by two operators, and no operator's constants (kernel, bias, gate tensors) are shared with another
    operator or produced by one: apart from the chained input every node of the graph occurs once. *)
Theorem C44_nodes_not_shared : forall c ls j, build c ls = Ok j ->
  NoDup (concat (map (fun o => tl (o_in o) ++ o_out o) (nj_graph j))).
Proof.
  intros c ls j E. destruct (build_shape _ _ _ E) as (mid & y & k & G & Cm & Om & T & Ej).
  change (NoDup (concat (map own (nj_graph j)))). rewrite G. cbn [map concat]. rewrite map_app, concat_app, Om.
  cbn [map concat own o_in o_out tl app]. rewrite app_nil_r. apply (seq_NoDup (S k) 0).
Qed.
(** The exported descriptions of input and output do not depend on the model: always shapes [1,784] and [1,10]. *)
Theorem C44_descriptions_are_constant : forall c ls c' ls' j j', build c ls = Ok j -> build c' ls' = Ok j' ->
  nj_in_shape j = [1; 784] /\ nj_out_shape j = [1; 10] /\ nj_in_shape j = nj_in_shape j' /\ nj_out_shape j = nj_out_shape j' /\
  nj_engine j = str "tflite".
Proof.
  intros c ls c' ls' j j' E E'. destruct (build_shape _ _ _ E) as (_ & _ & _ & _ & _ & _ & _ & Ej).
  destruct (build_shape _ _ _ E') as (_ & _ & _ & _ & _ & _ & _ & Ej'). rewrite Ej, Ej'. cbn. repeat split.
Qed.

(** Which models are accepted, and the error for the first layer that is not. *)
Definition valid_dtype (s : chars) : Prop := exists d, parse_dtype s = Ok d.
Inductive layer_ok (c : qcfg) : klayer -> Prop :=
| ok_dense name act d : layer_cfg c name = CDense d -> Forall valid_dtype [d_kernel d; d_act d; d_bias_add d; d_bias d] -> d_opt d = None ->
    layer_ok c (LDense name act)
| ok_lstm name : layer_ok c (LLstm name)
| ok_dropout : layer_ok c LDropout
| ok_input : layer_ok c LInput.
Inductive fault (c : qcfg) : klayer -> exn -> Prop :=
| fault_class : fault c LOther ETypeError
| fault_cfg name act : (forall d, layer_cfg c name <> CDense d) -> fault c (LDense name act) EAttributeError
| fault_rounding name act d o : layer_cfg c name = CDense d -> Forall valid_dtype [d_kernel d; d_act d; d_bias_add d; d_bias d] ->
    d_opt d = Some o -> fault c (LDense name act) ENotImplemented.
Lemma check_dtypes_ok d : check_dtypes d = Ok tt <-> Forall valid_dtype [d_kernel d; d_act d; d_bias_add d; d_bias d].
Proof.
  unfold check_dtypes, valid_dtype. rewrite !Forall_cons_iff.
  destruct (parse_dtype (d_kernel d)) as [k|]; cbn [rbind]; [|split; [discriminate|intros [[? ?] _]; discriminate]].
  destruct (parse_dtype (d_act d)) as [a|]; cbn [rbind]; [|split; [discriminate|intros [_ [[? ?] _]]; discriminate]].
  destruct (parse_dtype (d_bias_add d)) as [a2|]; cbn [rbind]; [|split; [discriminate|intros [_ [_ [[? ?] _]]]; discriminate]].
  destruct (parse_dtype (d_bias d)) as [a3|]; cbn [rbind]; [|split; [discriminate|intros [_ [_ [_ [[? ?] _]]]]; discriminate]].
  split; [|reflexivity]. intros _. repeat split; eauto.
Qed.
Lemma one_layer_ok c l prev next x : r_out prev = Some x ->
  (layer_ok c l <-> exists o, one_layer c l prev next = Ok o).
Proof.
  intros P. unfold one_layer. split.
  - intros H. destruct H as [name act d Hc Hd Ho|name| |]; cbn [get_layer_quantizer rbind].
    + unfold dense_quantize. rewrite Hc. apply check_dtypes_ok in Hd. rewrite Hd. cbn [rbind]. rewrite P, Ho. cbn [rbind]. eauto.
    + unfold lstm_quantize. rewrite P. cbn [rbind]. eauto.
    + eauto.
    + eauto.
  - intros [o E]. destruct l as [name act|name| | |]; cbn [get_layer_quantizer rbind] in E; try constructor; [|discriminate].
    unfold dense_quantize in E. destruct (layer_cfg c name) as [d| |] eqn:Hc; cbn [rbind] in E; try discriminate.
    destruct (check_dtypes d) as [[]|e] eqn:Hd; cbn [rbind] in E; [|discriminate]. rewrite P in E.
    destruct (d_opt d) eqn:Ho; [discriminate|]. econstructor; eauto. now apply check_dtypes_ok.
Qed.
Lemma run_ok c ls : forall prev next x, r_out prev = Some x -> ((exists rs, run c ls prev next = Ok rs) <-> Forall (layer_ok c) ls).
Proof.
  induction ls as [|l ls IH]; intros prev next x P; [split; [constructor|cbn; eauto]|]. rewrite Forall_cons_iff. cbn [run].
  rewrite (one_layer_ok c l prev next x P). split.
  - intros [rs E]. destruct (one_layer c l prev next) as [[[r n']|]|e] eqn:O; cbn [rbind] in E; [| |discriminate].
    + cbn [fst snd] in E. destruct (run c ls r n') as [rs'|] eqn:R; [|discriminate]. split; [eauto|].
      destruct (one_layer_step _ _ _ _ _ _ _ O P) as ((y & Ey & _) & _). apply (IH r n' y Ey). eauto.
    + split; [eauto|]. apply (IH prev next x P). eauto.
  - intros [[o E] F]. rewrite E. cbn [rbind]. destruct o as [[r n']|].
    + cbn [fst snd]. destruct (one_layer_step _ _ _ _ _ _ _ E P) as ((y & Ey & _) & _).
      apply (IH r n' y Ey) in F as [rs ->]. cbn [rbind]. eauto.
    + now apply (IH prev next x P).
Qed.
Theorem C44_succeeds_iff : forall c ls, (exists j, build c ls = Ok j) <-> (valid_dtype (c_quantize c) /\ Forall (layer_ok c) ls).
Proof.
  intros c ls. set (q0 := mkqr [mkoper (str "QUANTIZE") (str "QUANTIZE") [] [0%nat]] (Some 0%nat)).
  assert (R := run_ok c ls q0 1 0%nat eq_refl). split.
  - intros [j E]. unfold build, quantize_model, input_quantize in E. unfold valid_dtype.
    destruct (parse_dtype (c_quantize c)) as [d|e]; cbn [rbind fst snd] in E; [|discriminate]. split; [eauto|].
    rewrite quantize_layers_run in E. fold q0 in E. destruct (run c ls q0 1) as [rs|e]; [|discriminate]. apply R. eauto.
  - intros [[d Hd] F]. apply R in F as [rs Hr]. unfold build, quantize_model, input_quantize. rewrite Hd. cbn [rbind fst snd].
    rewrite quantize_layers_run. fold q0. rewrite Hr. cbn [rbind].
    destruct (run_spec _ _ _ _ _ 0%nat Hr eq_refl) as (y & k & Cy & Ey & Oy & T & N).
    destruct (rev rs ++ [q0]) as [|b rest] eqn:Q; [destruct (rev rs); discriminate|].
    assert (Hb : b = last rs q0).
    { destruct rs as [|a l]; [now injection Q|]. assert (X : a :: l <> []) by discriminate.
      destruct (exists_last X) as (l' & b' & Eq). rewrite Eq in Q |- *. rewrite rev_app_distr in Q. rewrite last_last. cbn in Q. now injection Q. }
    subst b. assert (D := dequantize_after _ _ _ _ _ _ _ Hr Cy N (fun _ => ex_intro _ _ (conj eq_refl eq_refl))).
    rewrite D. cbn [rbind]. eauto.
Qed.
Theorem C44_first_fault : forall c before bad after e, valid_dtype (c_quantize c) -> Forall (layer_ok c) before -> fault c bad e ->
  build c (before ++ bad :: after) = Err e.
Proof.
  intros c before bad after e [d Hd] F B. unfold build, quantize_model, input_quantize. rewrite Hd. cbn [rbind fst snd].
  rewrite quantize_layers_run.
  assert (G : forall prev next x, r_out prev = Some x -> run c (before ++ bad :: after) prev next = Err e).
  { induction F as [|l ls Hl F IH]; intros prev next x P; cbn [app run].
    - replace (one_layer c bad prev next) with (@Err (option (qresult * nat)) e); [reflexivity|]. symmetry.
      unfold one_layer. destruct B as [|name act H|name act d' o Hc Hv Ho]; cbn [get_layer_quantizer rbind].
      + reflexivity.
      + unfold dense_quantize. destruct (layer_cfg c name) as [d'| |]; [now destruct (H d')|reflexivity|reflexivity].
      + unfold dense_quantize. rewrite Hc. apply check_dtypes_ok in Hv. rewrite Hv. cbn [rbind]. rewrite P, Ho. reflexivity.
    - apply (one_layer_ok c l prev next x P) in Hl as [o E]. rewrite E. cbn [rbind]. destruct o as [[r n']|].
      + cbn [fst snd]. destruct (one_layer_step _ _ _ _ _ _ _ E P) as ((y & Ey & _) & _). now rewrite (IH r n' y Ey).
      + eauto. }
  rewrite (G (mkqr [mkoper (str "QUANTIZE") (str "QUANTIZE") [] [0%nat]] (Some 0%nat)) 1%nat 0%nat eq_refl). reflexivity.
Qed.

(** *** Loading the exported network in the inference engine *)
(** an activation the engine can run: no operator, a table operator, or a name the engine's dispatch accepts *)
Definition runnable (act : chars) : Prop :=
  In (upper act) no_operator_activations \/ In (upper act) table_activations \/ accepted (upper act).
Lemma accepted_kind op : accepted (upper op) <-> exists k, build_layer_kind op = Ok k.
Proof.
  destruct (C21_accepts_exactly op) as [A B]. split; [exact A|]. intros [k E].
  destruct (in_dec (list_eq_dec Ascii.ascii_dec) (upper op) [str "TANH"; str "TANHLUT"; str "QUANTIZE"; str "RELU"; str "LSTM"]) as [H|H]; [now left|].
  right. set (ps := [str "FULLY_CONN"; str "LOGISTIC"; str "SIGMOIDLUT"; str "SOFTMAX"; str "DEQUANTIZE"]) in *.
  destruct (existsb (fun p => contains p (upper op)) ps) eqn:X.
  - apply existsb_exists in X as (p & Hp & X). apply contains_spec in X. eauto.
  - exfalso. rewrite B in E; [discriminate|]. intros [H'|(p & Hp & Ho)]; [contradiction|].
    apply contains_spec in Ho. assert (Y : existsb (fun p => contains p (upper op)) ps = true) by (apply existsb_exists; eauto). congruence.
Qed.
Lemma act_types_accepted act ts : act_types act ts -> (Forall (fun t => accepted (upper t)) ts <-> runnable act).
Proof.
  intros H. unfold runnable. destruct H as [H|H|H1 H2].
  - split; [now left|constructor].
  - split; [now right; left|]. intros _. constructor; [|constructor]. apply accepted_kind.
    cbn in H. destruct H as [<-|[<-|[]]]; eexists; reflexivity.
  - rewrite Forall_cons_iff, upper_idem. split; [intros [A _]; now right; right|].
    intros [A|[A|A]]; [contradiction|contradiction|]. split; [exact A|constructor].
Qed.
Lemma emits_accepted ls ts : emits ls ts ->
  (Forall (fun t => accepted (upper t)) ts <-> forall name act, In (LDense name act) ls -> runnable act).
Proof.
  intros (tss & F & ->). induction F as [|l t ls tss H F IH]; [split; [intros _ n a []|constructor]|].
  cbn [concat]. rewrite Forall_app, IH. split.
  - intros [A B] n a [->|Hin]; [|eauto]. inversion H; subst. apply Forall_cons_iff in A as [_ A].
    eapply act_types_accepted; eauto.
  - intros A. split; [|intros n a Hin; apply (A n a); now right]. destruct H as [n a ts' Ha|n| |]; try (constructor; fail).
    + constructor; [apply accepted_kind; eexists; reflexivity|]. apply (act_types_accepted _ _ Ha). apply (A n a). now left.
    + constructor; [apply accepted_kind; eexists; reflexivity|constructor].
Qed.
(** The engine builds every layer of the exported file exactly when every dense activation is runnable (given constructors that
    accept the operators), starts in quantized mode, and holds one layer per exported operator. *)
Theorem C44_engine_loads_iff : forall c ls j V (b : builders oper V), build c ls = Ok j ->
  (forall k o, exists l, b_tflite b k o = Ok l) ->
  ((exists n, seq_init b (to_engine j) = Ok n) <-> forall name act, In (LDense name act) ls -> runnable act).
Proof.
  intros c ls j V b E Hb. rewrite C22_success_iff. unfold to_engine. cbn [jt_engine jt_graph jt_input jt_output].
  destruct (build_shape _ _ _ E) as (mid & y & k & G & Cm & Om & T & Ej).
  rewrite <- (emits_accepted _ _ T). rewrite Forall_forall. split.
  - intros (_ & _ & _ & _ & H) t Ht. apply in_map_iff in Ht as (o & <- & Ho).
    destruct (H (mkjop (o_type o) (o_name o) o)) as [l [Hl _]].
    { apply in_map_iff. exists o. split; [reflexivity|]. rewrite G. right. apply in_app_iff. now left. }
    apply accepted_kind. rewrite Ej in Hl. specialize (Hl eq_refl). unfold build_layer in Hl. cbn [jo_type jo_body] in Hl.
    destruct (build_layer_kind (o_type o)) as [kd|]; [eauto|discriminate].
  - intros H. rewrite Ej. cbn [nj_engine nj_graph as_json]. split; [left; reflexivity|]. split; [rewrite G; discriminate|].
    split; [eauto|]. split; [eauto|]. intros op Hop. apply in_map_iff in Hop as (o & <- & Ho).
    assert (Kd : exists kd, build_layer_kind (o_type o) = Ok kd).
    { rewrite G in Ho. destruct Ho as [<-|Ho]; [eexists; reflexivity|]. apply in_app_iff in Ho as [Ho|[<-|[]]]; [|eexists; reflexivity].
      apply accepted_kind, H, in_map, Ho. }
    destruct Kd as [kd Hk]. destruct (Hb kd o) as [l Hl]. exists l. split; [|intros X; discriminate].
    intros _. unfold build_layer. cbn [jo_type jo_body]. now rewrite Hk.
Qed.
Theorem C44_engine_mode : forall c ls j V (b : builders oper V) n, build c ls = Ok j -> seq_init b (to_engine j) = Ok n ->
  sn_quant n = true /\ length (sn_layers n) = length (nj_graph j).
Proof.
  intros c ls j V b n E I. destruct (build_shape _ _ _ E) as (mid & y & k & G & Cm & Om & T & Ej).
  unfold seq_init, to_engine in I. cbn [jt_engine jt_graph jt_input jt_output] in I.
  rewrite Ej in I. cbn [nj_engine nj_graph as_json] in I.
  change (py_index [Some (mkjnode None None)] 0) with (Ok (Some (mkjnode None None))) in I. cbn [rbind] in I.
  rewrite G in I at 1. cbn [map] in I.
  match type of I with context [py_index (?a :: ?l) 0] => assert (P0 : py_index (a :: l) 0 = Ok a) by (apply py_index_in_range; [lia|reflexivity]) end.
  rewrite P0 in I. cbn [rbind] in I. change (get_engine b (str "tflite")) with (Ok (build_layer b)) in I. cbn [rbind] in I.
  match type of I with context [mapM ?f ?l] => destruct (mapM f l) as [lay|e] eqn:M; [|discriminate] end.
  cbn [rbind jo_name] in I. injection I as <-. cbn [sn_quant sn_layers]. split; [reflexivity|].
  apply mapM_length in M. rewrite map_length in M. exact M.
Qed.
(** The activation functions of tf.keras.activations: the first five can be run, the others build a file that cannot be loaded. *)
Definition keras_supported : list chars := [str "linear"; str "relu"; str "softmax"; str "sigmoid"; str "tanh"].
Definition keras_unsupported : list chars := [str "elu"; str "selu"; str "softplus"; str "softsign"; str "swish"; str "gelu"; str "exponential"; str "hard_sigmoid"].
Theorem C44_keras_activations : forall act,
  (In act keras_supported -> runnable act) /\ (In act keras_unsupported -> ~ runnable act).
Proof.
  intros act. split; intros H.
  - cbn in H. unfold runnable. destruct H as [<-|[<-|[<-|[<-|[<-|[]]]]]]; [left|left|left|right; left|right; left]; vm_compute; tauto.
  - intros R. assert (X : mem (upper act) no_operator_activations = true \/ mem (upper act) table_activations = true \/
      match build_layer_kind (upper act) with Ok _ => true | Err _ => false end = true).
    { destruct R as [R|[R|R]]; [left; now apply mem_in|right; left; now apply mem_in|right; right].
      rewrite <- (upper_idem act) in R. apply accepted_kind in R as [k ->]. reflexivity. }
    clear R. cbn in H. destruct H as [<-|[<-|[<-|[<-|[<-|[<-|[<-|[<-|[]]]]]]]]]; vm_compute in X; intuition discriminate.
Qed.
(** The dispatch is by substring, so a log-softmax activation is exported under its own name and then run as a softmax layer. *)
Theorem C44_log_softmax_misread : act_types (str "log_softmax") [str "LOG_SOFTMAX"] /\ build_layer_kind (str "LOG_SOFTMAX") = Ok KSoftMax.
Proof. split; [|reflexivity]. apply (activation_op_types (str "log_softmax") 0 1). Qed.

Definition ex_layers : list klayer := [LInput; LDense (str "d1") (str "relu"); LDropout; LDense (str "d2") (str "tanh"); LLstm (str "rnn"); LDense (str "d3") (str "softmax")].
Example C44_example :
  Forall (layer_ok cfg_default) ex_layers /\ (forall n a, In (LDense n a) ex_layers -> runnable a) /\
  (do j <- build cfg_default ex_layers; Ok (map o_type (nj_graph j), nj_operators j, map o_out (nj_graph j))) =
  Ok ([str "QUANTIZE"; str "FULLY_CONNECTED"; str "FULLY_CONNECTED"; str "TANHLUT"; str "LSTM"; str "FULLY_CONNECTED"; str "DEQUANTIZE"], 7,
      [[0]; [3]; [6]; [7]; [39]; [42]; []]%nat) /\
  build cfg_default [LDense (str "d1") (str "relu"); LOther] = Err ETypeError.
Proof.
  assert (V8 : valid_dtype (str "int8")) by (eexists; reflexivity). assert (V32 : valid_dtype (str "int32")) by (eexists; reflexivity).
  split.
  { repeat constructor; eapply ok_dense; try reflexivity; repeat constructor; assumption. }
  split; [|split; vm_compute; reflexivity].
  intros n a H. apply C44_keras_activations. cbn in H. unfold keras_supported.
  repeat (destruct H as [H|H]; [try discriminate; injection H as <- <-; cbn; tauto|]). contradiction.
Qed.

(** *** keras2json *)
(** what the documented layer classes must contribute *)
Inductive kj_types : kjlayer -> list chars -> Prop :=
| kt_dense l : kj_class l = str "Dense" -> (1 <= kj_weights l)%nat -> kj_types l [str "FULLY_CONNECTED_F"; kj_act l]
| kt_lstm l : kj_class l = str "LSTM" -> (3 <= kj_weights l)%nat -> kj_dims l = 3%nat -> kj_types l [str "LSTM_F"]
| kt_conv l : kj_class l = str "Conv2D" -> (2 <= kj_weights l)%nat -> kj_types l [str "CONV_2D_F"; upper (kj_act l) ++ str "_F"]
| kt_flatten l : kj_class l = str "Flatten" -> kj_types l [str "FLATTEN"]
| kt_pool l : kj_class l = str "MaxPooling2D" -> kj_types l [str "MAXPOOLING_2D_F"]
| kt_skip l : In (kj_class l) [str "InputLayer"; str "Dropout"] -> kj_types l [].
Lemma kj_from_layer_types l ts : kj_types l ts -> exists ops, kj_from_layer l = Ok ops /\ map kjo_type ops = ts.
Proof.
  intros H. unfold kj_from_layer. destruct H as [l E W|l E W D|l E W|l E|l E|l E].
  - rewrite E. change (contains (str "DENSE") (upper (str "Dense"))) with true. cbv iota. unfold kj_dense.
    destruct (kj_weights l); [lia|]. eexists. split; reflexivity.
  - rewrite E. change (contains (str "DENSE") (upper (str "LSTM"))) with false. change (contains (str "LSTM") (upper (str "LSTM"))) with true. cbv iota.
    unfold kj_lstm. destruct (Nat.ltb_spec (kj_weights l) 3); [lia|]. rewrite D. cbn [Nat.eqb negb]. eexists. split; reflexivity.
  - rewrite E. change (contains (str "DENSE") (upper (str "Conv2D"))) with false. change (contains (str "LSTM") (upper (str "Conv2D"))) with false.
    change (contains (str "CONV2D") (upper (str "Conv2D"))) with true. cbv iota.
    unfold kj_conv. destruct (Nat.ltb_spec (kj_weights l) 2); [lia|]. eexists. split; reflexivity.
  - rewrite E. eexists. split; reflexivity.
  - rewrite E. eexists. split; reflexivity.
  - cbn in E. destruct E as [E|[E|[]]]; rewrite <- E; eexists; split; reflexivity.
Qed.
Theorem C44_keras2json_order : forall ls tss, Forall2 kj_types ls tss ->
  exists g, keras2json ls = Ok (g, Z.of_nat (length g)) /\ map kjo_type g = concat tss.
Proof.
  intros ls tss F. unfold keras2json.
  assert (G : exists xs, mapM kj_from_layer ls = Ok xs /\ map kjo_type (concat xs) = concat tss).
  { induction F as [|l ts ls tss H F (xs & E & M)]; [exists []; split; reflexivity|].
    apply kj_from_layer_types in H as (ops & Eo & Mo). exists (ops :: xs). cbn [mapM]. rewrite Eo. cbn [rbind]. rewrite E. cbn [rbind].
    split; [reflexivity|]. cbn [concat]. now rewrite map_app, Mo, M. }
  destruct G as (xs & -> & M). exists (concat xs). split; [reflexivity|exact M].
Qed.
(** For any model that converts, the graph is the concatenation of the layers' operators in layer order and the count is its length. *)
Theorem C44_keras2json_concatenates : forall ls g n, keras2json ls = Ok (g, n) ->
  n = Z.of_nat (length g) /\ exists parts, Forall2 (fun l p => keras2json [l] = Ok (p, Z.of_nat (length p))) ls parts /\ g = concat parts.
Proof.
  intros ls g n E. unfold keras2json in E. destruct (mapM kj_from_layer ls) as [xs|e] eqn:M; cbn [rbind] in E; [|discriminate].
  assert (Eg : concat xs = g) by congruence. assert (En : Z.of_nat (length (concat xs)) = n) by congruence.
  split; [now rewrite <- En, Eg|]. exists xs. split; [|now symmetry]. clear E Eg En. revert xs M.
  induction ls as [|l ls IH]; intros xs M; cbn [mapM] in M.
  - injection M as <-. constructor.
  - destruct (kj_from_layer l) as [p|] eqn:P; cbn [rbind] in M; [|discriminate].
    destruct (mapM kj_from_layer ls) as [ps|]; cbn [rbind] in M; [|discriminate]. injection M as <-.
    constructor; [|now apply IH]. unfold keras2json. cbn [mapM]. rewrite P. cbn [rbind concat]. now rewrite app_nil_r.
Qed.
(** Without bias the exported zeros have the length of the input, not of the output, so kernel and bias disagree unless square. *)
Theorem C44_keras2json_missing_bias : forall rows cols act d,
  exists ops, keras2json [mkkj (str "Dense") 1 act rows cols d] = Ok (ops, 2) /\
  exists f a, ops = [f; a] /\ kjo_kernel f = Some [cols; rows] /\ kjo_bias f = Some [rows].
Proof. intros rows cols act d. eexists. split; [reflexivity|]. eexists. eexists. split; [reflexivity|]. split; reflexivity. Qed.
(** Class names are matched by substring: other layers are converted as if they were the documented ones. *)
Theorem C44_keras2json_misread :
  (forall w a r c d, (2 <= w)%nat -> exists o1 o2, keras2json [mkkj (str "SeparableConv2D") w a r c d] = Ok ([o1; o2], 2) /\ kjo_type o1 = str "CONV_2D_F") /\
  (forall w a r c d, exists o, keras2json [mkkj (str "GlobalMaxPooling2D") w a r c d] = Ok ([o], 1) /\ kjo_type o = str "MAXPOOLING_2D_F") /\
  (forall w a r c, (3 <= w)%nat -> keras2json [mkkj (str "ConvLSTM2D") w a r c 5] = Err EValueError).
Proof.
  split; [|split].
  - intros w a r c d H. unfold keras2json. cbn [mapM].
    change (kj_from_layer (mkkj (str "SeparableConv2D") w a r c d)) with (kj_conv (mkkj (str "SeparableConv2D") w a r c d)).
    unfold kj_conv. cbn [kj_weights]. destruct (Nat.ltb_spec w 2); [lia|]. cbn. eexists. eexists. split; reflexivity.
  - intros. eexists. split; reflexivity.
  - intros w a r c H. unfold keras2json. cbn [mapM].
    change (kj_from_layer (mkkj (str "ConvLSTM2D") w a r c 5)) with (kj_lstm (mkkj (str "ConvLSTM2D") w a r c 5)).
    unfold kj_lstm. cbn [kj_weights kj_dims]. destruct (Nat.ltb_spec w 3); [lia|]. reflexivity.
Qed.
(** The converted file cannot be executed by this repository's engine, whatever the model. *)
Theorem C44_keras2json_not_executable : forall V (b : builders kjop V) g, seq_init b (kj_to_engine g) = Err EIndexError.
Proof. reflexivity. Qed.
Example C44_keras2json_example :
  let ls := [mkkj (str "InputLayer") 0 [] 0 0 2; mkkj (str "Dense") 2 (str "relu") 784 10 2; mkkj (str "Dropout") 0 [] 0 0 2; mkkj (str "Dense") 2 (str "softmax") 10 4 2] in
  Forall2 kj_types ls [[]; [str "FULLY_CONNECTED_F"; str "relu"]; []; [str "FULLY_CONNECTED_F"; str "softmax"]].
Proof.
  cbv zeta. constructor; [apply kt_skip; cbn; tauto|]. constructor; [apply (kt_dense (mkkj (str "Dense") 2 (str "relu") 784 10 2)); [reflexivity|cbn; lia]|].
  constructor; [apply kt_skip; cbn; tauto|]. constructor; [apply (kt_dense (mkkj (str "Dense") 2 (str "softmax") 10 4 2)); [reflexivity|cbn; lia]|constructor].
Qed.

(** ** C49 *)
(** the settings a dense layer called [name] gets *)
Definition used (c : qcfg) (name : chars) : layercfg := layer_cfg c name.
Definition registered (c : qcfg) (name : chars) : Prop := In name (map fst (c_specific c)).
Theorem C49_tflite : forall c,
  d_sym (c_dense (tflite c)) = true /\ c_ada (tflite c) = None /\ c_eq (tflite c) = None /\
  (* everything else is kept *)
  d_act (c_dense (tflite c)) = d_act (c_dense c) /\ d_bias_add (c_dense (tflite c)) = d_bias_add (c_dense c) /\
  d_bias (c_dense (tflite c)) = d_bias (c_dense c) /\ d_kernel (c_dense (tflite c)) = d_kernel (c_dense c) /\
  d_opt (c_dense (tflite c)) = d_opt (c_dense c) /\ d_reduced_depth (c_dense (tflite c)) = d_reduced_depth (c_dense c) /\
  c_quantize (tflite c) = c_quantize c /\ c_specific (tflite c) = c_specific c.
Proof. intros c. repeat split. Qed.
Theorem C49_tflite_idempotent : forall c, tflite (tflite c) = tflite c.
Proof. reflexivity. Qed.
(** Lookup: the configuration registered under the layer's name if any, the default otherwise. *)
Lemma assoc_in {A} k (l : list (chars * A)) a : NoDup (map fst l) -> (In (k, a) l <-> assoc k l = Some a).
Proof.
  induction l as [|[k' a'] l IH]; intros N; [split; [intros []|discriminate]|]. cbn [assoc]. inversion N; subst.
  destruct (chars_eqb k k') eqn:E.
  - apply chars_eqb_eq in E. subst k'. split.
    + intros [H|H]; [congruence|]. exfalso. apply H1. change k with (fst (k, a)). now apply in_map.
    + intros [= ->]. now left.
  - rewrite <- (IH H2). split; [intros [H|H]; [injection H as -> ->; rewrite chars_eqb_refl in E; discriminate|exact H]|now right].
Qed.
Lemma assoc_none {A} k (l : list (chars * A)) : assoc k l = None <-> ~ In k (map fst l).
Proof.
  induction l as [|[k' a'] l IH]; [split; [intros _ []|reflexivity]|]. cbn [assoc map fst In].
  destruct (chars_eqb k k') eqn:E; [apply chars_eqb_eq in E; subst; intuition congruence|].
  rewrite IH. split; [intros N [H|H]; [subst; rewrite chars_eqb_refl in E; discriminate|contradiction]|intros N H; apply N; now right].
Qed.
Theorem C49_lookup : forall c name, NoDup (map fst (c_specific c)) ->
  (forall l, In (name, l) (c_specific c) -> used c name = l) /\ (~ registered c name -> used c name = CDense (c_dense c)).
Proof.
  intros c name N. unfold used, layer_cfg, registered. split.
  - intros l H. apply (assoc_in _ _ _ N) in H. now rewrite H.
  - intros H. apply assoc_none in H. now rewrite H.
Qed.
(** What tflite() means for the kernels: symmetric for every layer without its own entry, and unchanged (possibly asymmetric) for
    every layer with one, because the dictionary's entries are not visited. *)
Theorem C49_tflite_unregistered_symmetric : forall c name, ~ registered c name ->
  exists d, used (tflite c) name = CDense d /\ d_sym d = true.
Proof.
  intros c name H. exists (dense_tflite (c_dense c)). split; [|reflexivity].
  unfold used, layer_cfg, registered in *. cbn [c_specific tflite]. apply assoc_none in H. now rewrite H.
Qed.
Theorem C49_tflite_registered_unchanged : forall c name, registered c name -> used (tflite c) name = used c name.
Proof.
  intros c name H. unfold used, layer_cfg, registered in *. cbn [c_specific tflite].
  destruct (assoc name (c_specific c)) eqn:E; [reflexivity|]. apply assoc_none in E. contradiction.
Qed.
Theorem C49_all_symmetric_refuted : exists c name d, used (tflite c) name = CDense d /\ d_sym d = false.
Proof. exists (mkqc dense_default (str "int8") None None [(str "d1", CDense dense_default)]), (str "d1"), dense_default. split; reflexivity. Qed.
(** tflite() removes the network-wide equalizers but not a layer's rounding optimizer, with which building always fails. *)
Theorem C49_tflite_keeps_layer_optimizer : forall c o name act, d_opt (c_dense c) = Some o -> ~ registered c name ->
  valid_dtype (c_quantize c) -> Forall valid_dtype [d_kernel (c_dense c); d_act (c_dense c); d_bias_add (c_dense c); d_bias (c_dense c)] ->
  build (tflite c) [LDense name act] = Err ENotImplemented.
Proof.
  intros c o name act Ho Hn Hq Hv. apply (C44_first_fault (tflite c) [] (LDense name act) []); [exact Hq|constructor|].
  eapply (fault_rounding _ _ _ (dense_tflite (c_dense c))); [|exact Hv|exact Ho].
  unfold layer_cfg. cbn [c_specific tflite]. apply assoc_none in Hn. now rewrite Hn.
Qed.
(** Optimizer entries: which of the three is chosen depends only on the "optimizer" key; without it the base one is chosen even if
    annealing parameters are given; any other word is a ValueError. *)
Theorem C49_optimizer_choice : forall o,
  (od_optimizer o = None \/ od_optimizer o = Some (str "base") -> exists n, parse_opt o = Ok (OMinima n)) /\
  (od_optimizer o = Some (str "annealer") -> exists a b u s r, parse_opt o = Ok (OAnnealer a b u s r) /\
     (forall t, od_t_max o = Some t -> b = t) /\ (forall k, od_steps o = Some k -> s = k)) /\
  (od_optimizer o = Some (str "qubo") -> parse_opt o = Ok OQubo) /\
  (forall w, od_optimizer o = Some w -> ~ In w [str "base"; str "annealer"; str "qubo"] -> parse_opt o = Err EValueError).
Proof.
  intros o. unfold parse_opt. split; [|split; [|split]].
  - intros [-> | ->]; eexists; reflexivity.
  - intros ->. change (chars_eqb (str "annealer") (str "base")) with false. change (chars_eqb (str "annealer") (str "annealer")) with true.
    cbv iota. repeat eexists; [intros t Ht|intros k Hk]; now rewrite ?Ht, ?Hk.
  - intros ->. reflexivity.
  - intros w -> H.
    assert (X : forall p, In p [str "base"; str "annealer"; str "qubo"] -> chars_eqb w p = false).
    { intros p Hp. destruct (chars_eqb w p) eqn:E; [|reflexivity]. apply chars_eqb_eq in E. subst. contradiction. }
    rewrite !X by (cbn; tauto). reflexivity.
Qed.
(** Entries of "specific_layers" read from a file always become dense settings, so a dtype given for a quantize layer is lost. *)
Theorem C49_specific_entries_are_dense : forall o l, parse_layer o = Ok l -> exists d, l = CDense d /\
  (ld_act o = None -> d_act d = str "int8") /\ (forall t, ld_act o = Some t -> d_act d = t) /\
  (ld_kernel o = None -> d_kernel d = str "int8") /\ (forall t, ld_kernel o = Some t -> d_kernel d = t).
Proof.
  intros o l E. unfold parse_layer in E.
  destruct (ld_opt o) as [x|]; [destruct (parse_opt x); cbn [rbind] in E; [|discriminate]|cbn [rbind] in E];
  (eexists; split; [symmetry; injection E as E; exact E|]); cbn [d_act d_kernel];
  (split; [intros ->; reflexivity|]); (split; [intros t ->; reflexivity|]); (split; [intros ->; reflexivity|intros t ->; reflexivity]).
Qed.
(** Every other field of such an entry: what is written, or else int8 (bias addition), int32 (bias), unsymmetric, no optimizer of
    its own and a reduced depth of 3. *)
Theorem C49_specific_entry_fields : forall o d, parse_layer o = Ok (CDense d) ->
  d_bias_add d = match ld_bias_add o with Some t => t | None => str "int8" end /\
  d_bias d = match ld_bias o with Some t => t | None => str "int32" end /\
  d_sym d = match ld_sym o with Some s => s | None => false end /\
  match ld_opt o with None => d_opt d = None | Some x => exists p, parse_opt x = Ok p /\ d_opt d = Some p end /\
  d_reduced_depth d = 3.
Proof.
  intros o d E. unfold parse_layer in E.
  destruct (ld_opt o) as [x|]; [destruct (parse_opt x) as [p|]; cbn [rbind] in E; [|discriminate]|cbn [rbind] in E];
    injection E as E; subst d; cbn [d_bias_add d_bias d_sym d_opt d_reduced_depth]; unfold dflt.
  - split; [reflexivity|]. split; [reflexivity|]. split; [reflexivity|]. split; [exists p; now split|reflexivity].
  - repeat split.
Qed.
(** and an entry fails only when its optimizer entry does *)
Theorem C49_specific_entry_faults : forall o e, parse_layer o = Err e <-> exists x, ld_opt o = Some x /\ parse_opt x = Err e.
Proof.
  intros o e. unfold parse_layer. destruct (ld_opt o) as [x|]; cbn [rbind].
  - destruct (parse_opt x) as [p|e'] eqn:P; cbn [rbind].
    + split; [discriminate|]. intros (y & Y & F). injection Y as <-. congruence.
    + split; [intros H; exists x; split; [reflexivity|congruence]|]. intros (y & Y & F). injection Y as <-. congruence.
  - split; [discriminate|]. intros (y & Y & _). discriminate Y.
Qed.
Example C49_example :
  let c := mkqc dense_default (str "int8") (Some OQubo) (Some 5) [(str "d1", CDense dense_default)] in
  registered c (str "d1") /\ ~ registered c (str "d2") /\ NoDup (map fst (c_specific c)) /\
  used (tflite c) (str "d2") = CDense (dense_tflite dense_default) /\ used c (str "d2") <> used (tflite c) (str "d2").
Proof.
  cbv zeta. split; [now left|]. split; [intros [H|[]]; discriminate|]. split; [repeat constructor; intros []|]. split; [reflexivity|discriminate].
Qed.
