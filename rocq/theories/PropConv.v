(** C45 (ONNX graph fusion) and C46 (ONNX converter node lookup). *)
From Verif Require Import Base BaseProofs DtypeModel DtypeProofs QuantModel QuantProofs LutModel FcModel EngineModel EngineProofs
  OnnxModel PropCore PropFc PropOnnx PropEngine ConvModel.
From Coq Require Import Lqa.
Open Scope Z_scope.
Open Scope list_scope.

Lemma skipn_skipn {A} x y (l : list A) : skipn x (skipn y l) = skipn (x + y) l.
Proof.
  revert l. induction y as [|y IH]; intros l; [now rewrite Nat.add_0_r|]. rewrite Nat.add_succ_r. destruct l; [now rewrite !skipn_nil|]. apply IH.
Qed.
(** ** Prefixes of joined names *)
Lemma prefix_of_spec p s : prefix_of p s = true <-> exists b, s = p ++ b.
Proof.
  revert s; induction p as [|a p IH]; intros s; cbn [prefix_of]; [split; [intros _; now exists s|reflexivity]|].
  destruct s as [|b s]; [split; [discriminate|intros [x E]; discriminate]|].
  rewrite andb_true_iff, IH. split.
  - intros [E [x ->]]. apply Ascii.eqb_eq in E. subst. now exists x.
  - intros [x E]. injection E as -> ->. split; [apply Ascii.eqb_refl|now exists x].
Qed.
Definition dot : Ascii.ascii := Ascii.Ascii false true true true false true false false.
Definition no_dot (s : chars) : Prop := ~ In dot s.
Lemma join_cons a r : r <> [] -> join (a :: r) = a ++ dot :: join r.
Proof. destruct r; [congruence|reflexivity]. Qed.
Lemma split_dot p q a s : no_dot p -> no_dot a -> p ++ dot :: q = a ++ dot :: s -> p = a /\ q = s.
Proof.
  revert a. induction p as [|x p IH]; intros [|y a] Hp Ha E; cbn in E.
  - injection E as ->. now split.
  - injection E as <- _. exfalso. apply Ha. now left.
  - injection E as -> _. exfalso. apply Hp. now left.
  - injection E as -> E. destruct (IH a) as [-> ->]; [intros H; apply Hp; now right|intros H; apply Ha; now right|exact E|now split].
Qed.
Lemma join_no_dot_prefix p ts : p <> [] -> no_dot p -> Forall no_dot ts ->
  (prefix_of p (join ts) = true <-> exists a r, ts = a :: r /\ prefix_of p a = true).
Proof.
  intros Np Hp F. rewrite prefix_of_spec. split.
  - intros [b E]. destruct ts as [|a r]; [cbn in E; destruct p; [congruence|discriminate]|].
    exists a, r. split; [reflexivity|]. apply prefix_of_spec. destruct r as [|a2 r]; [cbn in E; now exists b|].
    rewrite join_cons in E by discriminate. inversion F; subst. clear F H2. rename H1 into Ha. revert a Ha E Np Hp. clear.
    generalize (join (a2 :: r)) as z. intros z. induction p as [|x p IH]; intros [|y a] Ha E Np Hp; cbn in E; try congruence.
    + injection E as <- _. exfalso. apply Hp. now left.
    + injection E as -> E. destruct p as [|x2 p]; [now exists a|].
      destruct (IH a) as [w W]; [intros H; apply Ha; now right|exact E|discriminate|intros H; apply Hp; now right|]. exists w. cbn. now rewrite W.
  - intros (a & r & -> & E). apply prefix_of_spec in E as [b ->]. destruct r as [|a2 r]; [cbn; now exists b|].
    rewrite join_cons by discriminate. rewrite <- app_assoc. now eexists.
Qed.
Lemma join_dot_prefix p q ts : no_dot p -> Forall no_dot ts ->
  (prefix_of (p ++ dot :: q) (join ts) = true <-> exists r, ts = p :: r /\ r <> [] /\ prefix_of q (join r) = true).
Proof.
  intros Hp F. rewrite prefix_of_spec. split.
  - intros [b E]. rewrite <- app_assoc in E. cbn [app] in E. destruct ts as [|a r]; [cbn in E; destruct p; discriminate|]. inversion F; subst.
    destruct r as [|a2 r]; [cbn in E; exfalso; apply H1; rewrite E; apply in_app_iff; right; now left|].
    rewrite join_cons in E by discriminate. symmetry in E. apply split_dot in E as [-> E]; [|exact Hp|exact H1].
    exists (a2 :: r). split; [reflexivity|]. split; [discriminate|]. apply prefix_of_spec. now exists b.
  - intros (r & -> & N & E). apply prefix_of_spec in E as [b E]. rewrite join_cons by exact N. exists b.
    rewrite E, <- app_assoc. reflexivity.
Qed.
Lemma pattern_spec ts : Forall no_dot ts ->
  (prefix_of tanh_pattern (join ts) = true <->
   exists c r, ts = str "DequantizeLinear" :: str "Tanh" :: c :: r /\ prefix_of (str "QuantizeLinear") c = true).
Proof.
  intros F. change tanh_pattern with (str "DequantizeLinear" ++ dot :: str "Tanh" ++ dot :: str "QuantizeLinear").
  assert (D1 : no_dot (str "DequantizeLinear")) by (intros H; cbn in H; intuition discriminate).
  assert (D2 : no_dot (str "Tanh")) by (intros H; cbn in H; intuition discriminate).
  assert (D3 : no_dot (str "QuantizeLinear")) by (intros H; cbn in H; intuition discriminate).
  rewrite join_dot_prefix by assumption. split.
  - intros (r & -> & N & E). inversion F; subst. apply join_dot_prefix in E as (r2 & -> & N2 & E); [|exact D2|assumption].
    inversion H2; subst. apply join_no_dot_prefix in E as (c & r3 & -> & E); [eauto|discriminate|exact D3|assumption].
  - intros (c & r & -> & E). inversion F; subst. inversion H2; subst.
    exists (str "Tanh" :: c :: r). split; [reflexivity|]. split; [discriminate|]. apply join_dot_prefix; [exact D2|assumption|].
    exists (c :: r). split; [reflexivity|]. split; [discriminate|]. apply join_no_dot_prefix; [discriminate|exact D3|assumption|eauto].
Qed.

(** ** C45: which nodes are consumed *)
Definition covers (c : candidate) : list onode := match c with Single n => [n] | Fused ns => ns end.
Definition partition (ops : list onode) : option (res (list candidate)) := candidates (S (length ops)) ops 0.
Lemma candidates_spec ops : forall fuel idx, (idx <= length ops)%nat -> (length ops - idx < fuel)%nat ->
  exists cs, candidates fuel ops idx = Some (Ok cs) /\ concat (map covers cs) = skipn idx ops.
Proof.
  intros fuel. induction fuel as [|fuel IH]; intros idx Hi Hf; [lia|]. cbn [candidates].
  destruct (Nat.ltb_spec idx (length ops)) as [L|L].
  2:{ exists []. split; [reflexivity|]. rewrite skipn_all2 by lia. reflexivity. }
  assert (Ne : skipn idx ops <> []).
  { intros E. assert (X := skipn_length idx ops). rewrite E in X. cbn in X. lia. }
  unfold get_next. destruct (prefix_of tanh_pattern _).
  - destruct (Nat.le_gt_cases (idx + 3) (length ops)) as [Le|Gt].
    + destruct (IH (idx + 3)%nat Le) as (cs & E & C); [lia|]. rewrite E. eexists. split; [reflexivity|].
      cbn [map concat covers]. rewrite C. rewrite <- (firstn_skipn 3 (skipn idx ops)) at 2. f_equal.
      rewrite skipn_skipn. f_equal. lia.
    + destruct fuel as [|fuel]; [lia|]. cbn [candidates]. destruct (Nat.ltb_spec (idx + 3) (length ops)); [lia|].
      eexists. split; [reflexivity|]. cbn [map concat covers]. rewrite app_nil_r. apply firstn_all2. rewrite skipn_length. lia.
  - destruct (skipn idx ops) as [|n rest] eqn:Sk; [congruence|].
    destruct (IH (idx + 1)%nat) as (cs & E & C); [lia|lia|]. rewrite E. eexists. split; [reflexivity|].
    cbn [map concat covers app]. rewrite C. f_equal. change rest with (skipn 1 (n :: rest)). rewrite <- Sk, skipn_skipn. f_equal. lia.
Qed.
(** The loop ends for every node list and its candidates, concatenated, are the node list: nothing is lost, repeated or moved. *)
Theorem C45_every_node_once : forall ops, exists cs, partition ops = Some (Ok cs) /\ concat (map covers cs) = ops.
Proof. intros ops. apply (candidates_spec ops (S (length ops)) 0); lia. Qed.

(** Specification of the fusion: leftmost-first, one triple at a time.  Operator types have no dots. *)
Definition is_triple (d t q : onode) : Prop :=
  n_type d = str "DequantizeLinear" /\ n_type t = str "Tanh" /\ prefix_of (str "QuantizeLinear") (n_type q) = true.
Inductive fuses : list onode -> list candidate -> Prop :=
| fz_nil : fuses [] []
| fz_triple d t q rest cs : is_triple d t q -> fuses rest cs -> fuses (d :: t :: q :: rest) (Fused [d; t; q] :: cs)
| fz_single n rest cs : (forall t q r, rest = t :: q :: r -> ~ is_triple n t q) -> fuses rest cs -> fuses (n :: rest) (Single n :: cs).
Lemma candidates_fuses ops : Forall (fun n => no_dot (n_type n)) ops -> forall fuel idx cs,
  (idx <= length ops)%nat -> candidates fuel ops idx = Some (Ok cs) -> fuses (skipn idx ops) cs.
Proof.
  intros F fuel. induction fuel as [|fuel IH]; intros idx cs Hi E; [discriminate|]. cbn [candidates] in E.
  destruct (Nat.ltb_spec idx (length ops)) as [L|L].
  2:{ injection E as <-. rewrite skipn_all2 by lia. constructor. }
  assert (Fs : Forall no_dot (map n_type (skipn idx ops))).
  { apply Forall_map. apply Forall_forall. intros x Hx. rewrite Forall_forall in F. apply F.
    rewrite <- (firstn_skipn idx ops). apply in_app_iff. now right. }
  unfold get_next in E. destruct (prefix_of tanh_pattern (join (map n_type (skipn idx ops)))) eqn:P.
  - apply (pattern_spec _ Fs) in P as (c & r & Em & Pq).
    destruct (skipn idx ops) as [|d [|t [|q rest]]] eqn:Sk; try discriminate. cbn [map] in Em. injection Em as E1 E2 E3 E4. subst c.
    cbn [firstn] in E. destruct (candidates fuel ops (idx + 3)) as [[cs'|]|] eqn:C; try discriminate. injection E as <-.
    assert (Len : (idx + 3 <= length ops)%nat).
    { assert (X := skipn_length idx ops). rewrite Sk in X. cbn in X. lia. }
    apply fz_triple; [repeat split; assumption|]. apply IH in C; [|exact Len].
    replace rest with (skipn (idx + 3) ops); [exact C|]. rewrite Nat.add_comm, <- skipn_skipn, Sk. reflexivity.
  - destruct (skipn idx ops) as [|n rest] eqn:Sk; [discriminate|].
    destruct (candidates fuel ops (idx + 1)) as [[cs'|]|] eqn:C; try discriminate. injection E as <-.
    apply fz_single.
    + intros t q r -> (A & B & D). assert (X : prefix_of tanh_pattern (join (map n_type (n :: t :: q :: r))) = true); [|congruence].
      apply (pattern_spec _ Fs). cbn [map]. rewrite A, B. eauto.
    + apply IH in C; [|lia]. replace rest with (skipn (idx + 1) ops); [exact C|]. rewrite Nat.add_comm, <- skipn_skipn, Sk. reflexivity.
Qed.
Theorem C45_fuses_exactly : forall ops cs, Forall (fun n => no_dot (n_type n)) ops ->
  (partition ops = Some (Ok cs) <-> fuses ops cs).
Proof.
  assert (Det : forall ops cs, fuses ops cs -> forall cs', fuses ops cs' -> cs = cs').
  { intros ops cs H. induction H as [|d t q rest cs T H IH|n rest cs N H IH]; intros cs' H'.
    - inversion H'. reflexivity.
    - inversion H'; subst; [f_equal; auto|]. exfalso. match goal with X : forall t q r, _ -> ~ _ |- _ => eapply X; eauto end.
    - inversion H'; subst; [exfalso; eapply N; eauto|f_equal; auto]. }
  intros ops cs F. split.
  - intros E. apply (candidates_fuses ops F _ 0 cs) in E; [exact E|lia].
  - intros H. destruct (C45_every_node_once ops) as (cs' & E & _). rewrite E.
    assert (H' : fuses ops cs') by (apply (candidates_fuses ops F _ 0 cs') in E; [exact E|lia]). now rewrite (Det _ _ H _ H').
Qed.
(** No occurrence is left unfused: three consecutive single candidates are never the triple. *)
Theorem C45_none_missed : forall ops cs, Forall (fun n => no_dot (n_type n)) ops -> partition ops = Some (Ok cs) ->
  forall pre d t q post, cs = pre ++ Single d :: Single t :: Single q :: post -> ~ is_triple d t q.
Proof.
  intros ops cs F E. apply (C45_fuses_exactly ops cs F) in E. clear F.
  induction E as [|d t q rest cs T H IH|n rest cs N H IH]; intros pre d0 t0 q0 post Eq.
  - now destruct pre.
  - destruct pre as [|c pre]; [discriminate|]. injection Eq as _ Eq. eapply IH; eauto.
  - destruct pre as [|c pre].
    + cbn in Eq. injection Eq as -> ->. inversion H as [| |n2 r2 c2 N2 H2]; subst. inversion H2 as [| |n3 r3 c3 N3 H3]; subst.
      eapply N. reflexivity.
    + injection Eq as _ Eq. eapply IH; eauto.
Qed.
(** The test compares text, so a node whose type merely begins with QuantizeLinear is swallowed as well. *)
Theorem C45_textual_prefix : forall suffix d t q, no_dot suffix -> n_type d = str "DequantizeLinear" -> n_type t = str "Tanh" ->
  n_type q = str "QuantizeLinear" ++ suffix -> partition [d; t; q] = Some (Ok [Fused [d; t; q]]).
Proof.
  intros s d t q Hs A B C. apply C45_fuses_exactly.
  - repeat constructor; [rewrite A|rewrite B|rewrite C]; unfold no_dot; try (intros H; cbn in H; intuition discriminate).
    intros H. apply in_app_iff in H as [H|H]; [cbn in H; intuition discriminate|contradiction].
  - apply fz_triple; [|constructor]. split; [exact A|]. split; [exact B|]. apply prefix_of_spec. now exists s.
Qed.
(** Exported operator types: one per candidate, all known to the engine; a node of any other type is a ValueError. *)
Definition exported (c : candidate) : chars :=
  match c with
  | Fused _ => str "TanhLUT"
  | Single n => if chars_eqb (n_type n) (str "QLinearSigmoid") then str "SigmoidLUT" else n_type n
  end.
Definition convertible_types : list chars :=
  [str "Tanh"; str "Softmax"; str "QuantizeLinear"; str "DequantizeLinear"; str "QLinearAdd"; str "QLinearMatMul"; str "QLinearSigmoid"].
Lemma build_op_type f st m c o : build_op f st m c = Ok o -> jo_type o = exported c /\ jo_name o = exported c /\
  match c with Single n => In (n_type n) convertible_types | Fused _ => True end.
Proof.
  destruct c as [n|ns]; cbn [build_op exported].
  - repeat match goal with |- context [if chars_eqb (n_type n) ?x then _ else _] =>
      let E := fresh "E" in destruct (chars_eqb (n_type n) x) eqn:E;
      [apply chars_eqb_eq in E; rewrite ?E|] end; intros H; try discriminate;
    (match type of H with (do x <- ?b; _) = _ => destruct b; cbn [rbind] in H; [injection H as <-|discriminate] end);
    cbn [jo_type jo_name]; rewrite ?E; repeat split; unfold convertible_types; cbn; auto 10.
  - intros H. destruct (build_tanh_lut f m ns); cbn [rbind] in H; [injection H as <-|discriminate]. repeat split.
Qed.
Theorem C45_exported_types : forall f st m g, build_graph f st m = Ok g ->
  exists cs, partition (m_nodes m) = Some (Ok cs) /\ map jo_type g = map exported cs /\
    Forall (fun o => exists k, build_operator_kind (jo_type o) = Ok k) g.
Proof.
  intros f st m g E. unfold build_graph in E. destruct (C45_every_node_once (m_nodes m)) as (cs & P & _). unfold partition in P. rewrite P in E.
  exists cs. split; [exact P|]. clear P. revert g E. induction cs as [|c cs IH]; intros g E; cbn [mapM] in E.
  - injection E as <-. split; constructor.
  - destruct (build_op f st m c) as [o|] eqn:B; cbn [rbind] in E; [|discriminate].
    destruct (mapM (build_op f st m) cs) as [r|]; cbn [rbind] in E; [|discriminate]. injection E as <-.
    destruct (IH r eq_refl) as [T A]. destruct (build_op_type _ _ _ _ _ B) as (To & _ & Ti). split; [cbn; now rewrite To, T|].
    constructor; [|exact A]. rewrite To. apply C21_onnx_exact. destruct c as [n|ns]; cbn [exported]; [|cbn; tauto].
    unfold convertible_types in Ti. cbn in Ti. repeat (destruct Ti as [<-|Ti]; [cbn; tauto|]). contradiction.
Qed.
Theorem C45_unknown_type : forall f st m pre n post, m_nodes m = pre ++ n :: post -> Forall (fun n => no_dot (n_type n)) (m_nodes m) ->
  (forall s, n_type n <> str "QuantizeLinear" ++ s) -> ~ In (n_type n) convertible_types ->
  exists e, build_graph f st m = Err e.
Proof.
  intros f st m pre n post Em Hd Hq Hn. destruct (build_graph f st m) as [g|e] eqn:E; [exfalso|eauto].
  unfold build_graph in E. destruct (C45_every_node_once (m_nodes m)) as (cs & P & C). unfold partition in P. rewrite P in E.
  assert (Fz : fuses (m_nodes m) cs) by now apply C45_fuses_exactly.
  assert (S1 : In (Single n) cs).
  { assert (In n (m_nodes m)) by (rewrite Em; apply in_app_iff; right; now left). clear - Fz H Hq Hn.
    induction Fz as [|d t q rest cs (A & B & D) Fz IH|x rest cs N Fz IH]; [destruct H| |].
    - destruct H as [<-|[<-|[<-|H]]].
      + exfalso. apply Hn. rewrite A. unfold convertible_types. cbn. tauto.
      + exfalso. apply Hn. rewrite B. unfold convertible_types. cbn. tauto.
      + exfalso. apply prefix_of_spec in D as [s D]. now apply (Hq s).
      + right. auto.
    - destruct H as [<-|H]; [now left|right; auto]. }
  clear - E S1 Hn. revert g E. induction cs as [|c cs IH]; intros g E; [destruct S1|]. cbn [mapM] in E.
  destruct (build_op f st m c) as [o|] eqn:B; cbn [rbind] in E; [|discriminate].
  destruct (mapM (build_op f st m) cs) as [r|] eqn:M; cbn [rbind] in E; [|discriminate].
  destruct S1 as [->|S1]; [|exact (IH S1 r eq_refl)]. apply build_op_type in B as (_ & _ & B). contradiction.
Qed.

(** ** C45: what the exported network computes *)
(** Reference meaning of an ONNX node, from the operator documentation and the graph's constants, on one sample.
    (Rounding of QuantizeLinear and of the tables is half up, of the others half to even.) *)
Definition sat8 (z : Z) : Z := clamp 0 255 z.
Definition half_up (x : Q) : Z := Qfloor (x + (1#2)).
Definition is_init (m : omodel) (k : chars) (i : init) : Prop := In i (m_init m) /\ i_name i = k.
Definition constants (m : omodel) (scale zp : chars) (s : Q) (z : Z) : Prop :=
  exists si zi, is_init m scale si /\ is_init m zp zi /\ hd_error (i_float si) = Some s /\ hd_error (i_int zi) = Some z /\
    uint8 z /\ ~ (s == 0)%Q.
Inductive ref_step (f : fns) (m : omodel) : onode -> value -> value -> Prop :=
| rs_quantize n a b c o r s z x : n_type n = str "QuantizeLinear" -> n_in n = [a; b; c] -> n_out n = o :: r -> constants m b c s z ->
    ref_step f m n (Floats x) (Codes (map (fun v => sat8 (half_up (v / s + inject_Z z))) x))
| rs_dequantize n a b c o r s z q : n_type n = str "DequantizeLinear" -> n_in n = [a; b; c] -> n_out n = o :: r -> constants m b c s z ->
    Forall uint8 q -> ref_step f m n (Codes q) (Floats (map (fun c => inject_Z (c - z) * s)%Q q))
| rs_tanh n x : n_type n = str "Tanh" -> ref_step f m n (Floats x) (Floats (map (f_tanh f) x))
| rs_softmax n x : n_type n = str "Softmax" ->
    ref_step f m n (Floats x) (Floats (map (fun v => f_exp f v / sumQ (map (f_exp f) x))%Q x))
| rs_sigmoid n a is_ iz_ os_ oz_ o r is iz os oz q : n_type n = str "QLinearSigmoid" -> n_in n = [a; is_; iz_; os_; oz_] -> n_out n = o :: r ->
    constants m is_ iz_ is iz -> constants m os_ oz_ os oz -> Forall uint8 q ->
    ref_step f m n (Codes q) (Codes (map (fun c => sat8 (half_up (f_sig f (inject_Z (c - iz) * is) / os + inject_Z oz))) q))
| rs_add n a is_ iz_ b bs_ bz_ os_ oz_ o r is iz bs bz os oz q bi : n_type n = str "QLinearAdd" ->
    n_in n = [a; is_; iz_; b; bs_; bz_; os_; oz_] -> n_out n = o :: r ->
    constants m is_ iz_ is iz -> constants m bs_ bz_ bs bz -> constants m os_ oz_ os oz ->
    is_init m b bi -> i_dims bi = [length q] -> length (i_raw bi) = length q -> Forall uint8 q -> Forall uint8 (i_raw bi) ->
    ref_step f m n (Codes q) (Codes (map (fun p => sat8 (Qround_even ((is * inject_Z (fst p - iz) + bs * inject_Z (snd p - bz)) / os) + oz))
                                         (combine q (i_raw bi))))
| rs_matmul n a is_ iz_ w ws_ wz_ os_ oz_ o r is iz ws wz os oz q wi cols : n_type n = str "QLinearMatMul" ->
    n_in n = [a; is_; iz_; w; ws_; wz_; os_; oz_] -> n_out n = o :: r ->
    constants m is_ iz_ is iz -> constants m ws_ wz_ ws wz -> constants m os_ oz_ os oz ->
    is_init m w wi -> i_dims wi = [length q; cols] -> length (i_raw wi) = (length q * cols)%nat -> (1 <= cols)%nat -> q <> [] ->
    Z.of_nat (length q) <= 33025 -> Forall uint8 q -> Forall uint8 (i_raw wi) ->
    ref_step f m n (Codes q) (Codes (map (fun j =>
      sat8 (Qround_even (is * ws / os * inject_Z (sumZ_upto (length q) (fun i => (nth i q 0 - iz) * (nth (i * cols + j) (i_raw wi) 0 - wz)))) + oz))
      (seq 0 cols))).
Definition nonempty (v : value) : Prop := match v with Codes l => l <> [] | Floats l => l <> [] end.
Inductive ref_run (f : fns) (m : omodel) : list onode -> value -> value -> Prop :=
| rr_nil v : ref_run f m [] v v
| rr_cons n ns v w x : nonempty v -> ref_step f m n v w -> ref_run f m ns w x -> ref_run f m (n :: ns) v x.
(** a tensor name the converter can look up (see C46) *)
Definition findable (m : omodel) (k : chars) : Prop := exists j, build_base_node m k = Ok j.
Definition io_ok (m : omodel) (n : onode) : Prop :=
  In (n_type n) [str "Tanh"; str "Softmax"] -> exists i ir o or, n_in n = i :: ir /\ n_out n = o :: or /\ findable m i /\ findable m o.
Inductive ok_nodes (m : omodel) : list onode -> Prop :=
| ok_nil : ok_nodes m []
| ok_fused d t q r : n_type d = str "DequantizeLinear" -> n_type t = str "Tanh" -> n_type q = str "QuantizeLinear" -> ok_nodes m r ->
    ok_nodes m (d :: t :: q :: r)
| ok_plain n r : io_ok m n -> ok_nodes m r -> ok_nodes m (n :: r).

(** *** lookups *)
Lemma last_idx_base {A} (key : A -> chars) k l : forall b, last_idx key k l b = option_map (fun j => (b + j)%nat) (last_idx key k l 0).
Proof.
  induction l as [|a l IH]; intros b; [reflexivity|]. cbn [last_idx]. rewrite (IH (S b)), (IH 1%nat).
  destruct (last_idx key k l 0); cbn [option_map]; [f_equal; lia|]. destruct (chars_eqb (key a) k); cbn [option_map]; [f_equal; lia|reflexivity].
Qed.
Lemma last_idx_none {A} (key : A -> chars) k l b : last_idx key k l b = None <-> ~ In k (map key l).
Proof.
  revert b; induction l as [|a l IH]; intros b; [split; [intros _ []|reflexivity]|]. cbn [last_idx map In].
  destruct (last_idx key k l (S b)) eqn:E.
  - split; [discriminate|]. intros N. exfalso. assert (X : last_idx key k l (S b) = None) by (apply IH; tauto). congruence.
  - apply IH in E. destruct (chars_eqb (key a) k) eqn:C; [apply chars_eqb_eq in C; split; [discriminate|tauto]|].
    split; [|reflexivity]. intros _ [H|H]; [rewrite H, chars_eqb_refl in C; discriminate|contradiction].
Qed.
Lemma last_idx_unique {A} (key : A -> chars) k l i a : NoDup (map key l) -> nth_error l i = Some a -> key a = k ->
  last_idx key k l 0 = Some i.
Proof.
  revert i. induction l as [|x l IH]; intros i N E K; [now destruct i|]. cbn [last_idx]. rewrite last_idx_base. cbn [map] in N. inversion N; subst.
  destruct i as [|i]; cbn in E.
  - injection E as ->. assert (Z : last_idx key (key a) l 0 = None) by (apply last_idx_none; assumption). rewrite Z. cbn [option_map].
    now rewrite chars_eqb_refl.
  - rewrite (IH i H2 E eq_refl). reflexivity.
Qed.
Lemma get_init_ok m k i : NoDup (map i_name (m_init m)) -> is_init m k i -> get_init m k = Ok i.
Proof.
  intros N [Hin Hk]. apply In_nth_error in Hin as [j E]. unfold get_init. rewrite (last_idx_unique _ _ _ _ _ N E Hk). now rewrite E.
Qed.
Lemma py0 {A} (l : list A) a : hd_error l = Some a -> py_index l 0 = Ok a.
Proof. destruct l; [discriminate|]. intros [= ->]. apply py_index_in_range; [lia|reflexivity]. Qed.
Lemma qnode_ok m s z sv zv : NoDup (map i_name (m_init m)) -> constants m s z sv zv ->
  build_quantized_node m None s z false = Ok (mkjn (Some sv) (Some zv) None None None).
Proof.
  intros N (si & zi & Hs & Hz & Fs & Fz & _). unfold build_quantized_node. rewrite (get_init_ok _ _ _ N Hs), (get_init_ok _ _ _ N Hz).
  cbn [rbind]. rewrite (py0 _ _ Fs), (py0 _ _ Fz). reflexivity.
Qed.
Lemma qnode_tensor_ok m t s z sv zv ti tr : NoDup (map i_name (m_init m)) -> constants m s z sv zv -> is_init m t ti ->
  length (i_raw ti) = prod (i_dims ti) -> i_dims ti <> [] ->
  build_quantized_node m (Some t) s z tr = Ok (mkjn (Some sv) (Some zv)
    (Some (let a := mknd (i_dims ti) (fun idx => nth (flat_idx (i_dims ti) idx) (i_raw ti) 0) in if tr then transpose a else a)) None None).
Proof.
  intros N (si & zi & Hs & Hz & Fs & Fz & _) Ht L Ne. unfold build_quantized_node.
  rewrite (get_init_ok _ _ _ N Hs), (get_init_ok _ _ _ N Hz). cbn [rbind]. rewrite (get_init_ok _ _ _ N Ht). cbn [rbind].
  unfold reshape. rewrite L, Nat.eqb_refl. cbn [rbind].
  assert (AL : forall a : nd Z, nd_shape a <> [] -> as_list a = Ok a) by (intros a Ha; unfold as_list; destruct (nd_shape a); [congruence|reflexivity]).
  rewrite AL. 2:{ destruct tr; cbn [transpose nd_shape]; [|exact Ne]. intros R. apply (f_equal (@rev nat)) in R. rewrite rev_involutive in R. exact (Ne R). }
  cbn [rbind]. rewrite (py0 _ _ Fs), (py0 _ _ Fz). reflexivity.
Qed.
Lemma constants_pos m s z sv zv : constants m s z sv zv -> uint8 zv /\ Qeq_bool sv 0 = false.
Proof.
  intros (_ & _ & _ & _ & _ & _ & U & P). split; [exact U|]. destruct (Qeq_bool sv 0) eqn:E; [apply Qeq_bool_iff in E; contradiction|reflexivity].
Qed.
(** *** elementwise facts *)
Lemma nd_to_list_map {A B} (h : A -> B) d (l : list A) : nd_to_list (nd_map h (nd_of_list d l)) = map h l.
Proof.
  unfold nd_to_list, nd_map, nd_of_list. cbn [nd_shape nd_get hd].
  rewrite <- (map_map (fun i => nth i l d) h). f_equal. clear h. induction l as [|a l IH]; [reflexivity|].
  cbn [length seq map nth]. f_equal. rewrite <- seq_shift, map_map. exact IH.
Qed.
Lemma u8_fits : fits_i32 u8.
Proof. unfold fits_i32. cbn. lia. Qed.
Lemma u8_sat x : q_round u8 (1#2) x = sat8 (half_up x).
Proof. rewrite q_round_clip by exact u8_fits. unfold sat8, half_up. rewrite clamp_clip by lia. reflexivity. Qed.
Lemma u8_quantize s z x : nd_to_list (quantize_linear s z (nd_of_list 0%Q x)) = map (fun v => sat8 (half_up (v / s + inject_Z z))) x.
Proof.
  unfold quantize_linear, quantize.
  change (nd_map (q_round u8 (1 # 2)) (nd_map (fun x0 => x0 / s + inject_Z z)%Q (nd_of_list 0%Q x)))
    with (nd_map (fun v => q_round u8 (1#2) (v / s + inject_Z z)) (nd_of_list 0%Q x)).
  rewrite nd_to_list_map. apply map_ext. intros v. apply u8_sat.
Qed.
Lemma u8_dequant z s c : uint8 c -> uint8 z -> dequant1 z s c = (inject_Z (c - z) * s)%Q.
Proof.
  unfold uint8. intros A B. unfold dequant1. rewrite (wrap_s_id 32 c) by lia. now rewrite (wrap_s_id 32 (c - z)) by lia.
Qed.
Lemma u8_dequantize s z q : uint8 z -> Forall uint8 q ->
  nd_to_list (dequantize_linear s z (nd_of_list 0 q)) = map (fun c => inject_Z (c - z) * s)%Q q.
Proof.
  intros Z F. unfold dequantize_linear, dequantize. rewrite nd_to_list_map. apply map_ext_in. intros c Hc.
  rewrite Forall_forall in F. now apply u8_dequant; [apply F|].
Qed.
Lemma u8_table g is iz os oz depth mr q : uint8 iz -> q <> [] -> Forall uint8 q ->
  (do l <- lut_from_node (q_lut (lut_node None None depth mr (create_LUT u8 g is iz os oz None))); lut_infer l q) =
  Ok (map (fun c => sat8 (half_up (g (inject_Z (c - iz) * is)%Q / os + inject_Z oz))) q).
Proof.
  intros Hz Hn F. rewrite Forall_forall in F.
  assert (T := C18_reduced_table u8 g is iz os oz depth mr q Hn (fun c Hc => F c Hc)).
  etransitivity; [exact T|]. f_equal. apply map_ext_in. intros c Hc. unfold requantized. rewrite quantize_none.
  cbn [scalar nd_get dequantize nd_map]. rewrite u8_dequant by auto. unfold quant1. apply u8_sat.
Qed.
Lemma map_seq_nth {A} (l : list A) d : map (fun i => nth i l d) (seq 0 (length l)) = l.
Proof. induction l as [|a l IH]; [reflexivity|]. cbn [length seq map nth]. f_equal. rewrite <- seq_shift, map_map. exact IH. Qed.
Lemma qadd_vec is iz bs bz os oz q b : uint8 iz -> uint8 bz -> Forall uint8 q -> Forall uint8 b -> length b = length q ->
  (do r <- qadd_infer (mkqadd is iz (mknd [length q] (fun idx => nth (flat_idx [length q] idx) b 0)) bs bz os oz) (nd_of_list 0 q);
   Ok (Codes (nd_to_list r))) =
  Ok (Codes (map (fun p => sat8 (Qround_even ((is * inject_Z (fst p - iz) + bs * inject_Z (snd p - bz)) / os) + oz)) (combine q b))).
Proof.
  intros Hi Hb Fq Fb L. unfold qadd_infer, nd_bin. cbn [qa_b nd_of_list nd_shape]. rewrite bshape_refl. cbn [rbind]. f_equal. f_equal.
  unfold nd_to_list. cbn [nd_shape hd nd_get].
  assert (E : combine q b = map (fun i => (nth i q 0, nth i b 0)) (seq 0 (length q))).
  { rewrite <- (map_seq_nth q 0) at 1. rewrite <- (map_seq_nth b 0) at 1. rewrite L. generalize (seq 0 (length q)). intros l.
    induction l as [|a l IH]; [reflexivity|]. cbn [map combine]. now rewrite IH. }
  rewrite E, map_map. apply map_ext_in. intros i Hi'. apply in_seq in Hi'.
  assert (V : valid_idx [length q] [i] = true) by (cbn [valid_idx]; destruct (Nat.ltb_spec i (length q)); [reflexivity|lia]).
  rewrite (bidx_same _ _ V). cbn [hd flat_idx prod fst snd]. replace (i * 1 + 0)%nat with i by lia.
  unfold qadd1. cbn [qa_is qa_izp qa_bs qa_bzp qa_os qa_ozp].
  rewrite !u8_center; try assumption; [unfold sat8; now rewrite clamp_clip by lia| |].
  - rewrite Forall_forall in Fb. apply Fb. apply nth_In. lia.
  - rewrite Forall_forall in Fq. apply Fq. change (nd_get (nd_of_list 0 q) [i]) with (nth i q 0). apply nth_In. lia.
Qed.
Lemma nth_error_ext' {A} (a : list A) : forall b, (forall i, nth_error a i = nth_error b i) -> a = b.
Proof.
  induction a as [|x a IH]; intros [|y b] H; [reflexivity|specialize (H 0%nat); discriminate|specialize (H 0%nat); discriminate|].
  f_equal; [specialize (H 0%nat); now injection H|]. apply IH. intros i. exact (H (S i)).
Qed.
Lemma nth_map_seq (g : nat -> Z) n i : (i < n)%nat -> nth i (map g (seq 0 n)) 0 = g i.
Proof. intros H. rewrite (nth_indep _ 0 (g 0%nat)) by (rewrite map_length, seq_length; lia). rewrite map_nth, seq_nth by lia. reflexivity. Qed.
Lemma qmm_vec is iz ws wz os oz q raw cols : uint8 iz -> uint8 wz -> Forall uint8 q -> Forall uint8 raw -> Z.of_nat (length q) <= 33025 ->
  length raw = (length q * cols)%nat ->
  qmm_infer (qmm_build is iz (map (fun j => map (fun i => nth (i * (cols * 1) + (j * 1 + 0)) raw 0) (seq 0 (length q))) (seq 0 cols)) ws wz os oz) (T1 q) =
  Ok (T1 (map (fun j => sat8 (Qround_even (is * ws / os * inject_Z (sumZ_upto (length q) (fun i => (nth i q 0 - iz) * (nth (i * cols + j) raw 0 - wz)))) + oz))
      (seq 0 cols))).
Proof.
  intros Hi Hw Fq Fr Ln Lr. set (W := map _ (seq 0 cols)).
  destruct (C23_matmul_half_unit is iz W ws wz os oz q) as (y & E & Ly & Hy).
  { intros w Hw'. apply in_map_iff in Hw' as (j & <- & _). now rewrite map_length, seq_length. }
  etransitivity; [exact E|]. f_equal. f_equal. apply nth_error_ext'. intros j. 
  assert (LW : length W = cols) by (unfold W; now rewrite map_length, seq_length).
  destruct (Nat.lt_ge_cases j cols) as [Hj|Hj].
  2:{ rewrite (proj2 (nth_error_None y j)) by lia. symmetry. apply nth_error_None. rewrite map_length, seq_length. lia. }
  assert (Ew : nth_error W j = Some (map (fun i => nth (i * (cols * 1) + (j * 1 + 0)) raw 0) (seq 0 (length q)))).
  { unfold W. rewrite nth_error_map, (nth_error_nth' _ 0%nat) by (rewrite seq_length; lia). rewrite seq_nth by lia. reflexivity. }
  destruct (nth_error y j) as [v|] eqn:Ev; [|apply nth_error_None in Ev; lia].
  rewrite nth_error_map, (nth_error_nth' _ 0%nat) by (rewrite seq_length; lia). rewrite seq_nth by lia. cbn [option_map Nat.add]. f_equal.
  destruct (Hy j _ v Ew Ev) as (_ & H). cbv zeta in H.
  set (w := map _ (seq 0 (length q))) in *.
  assert (U : forall l, Forall uint8 l -> forall i, uint8 (nth i l 0)).
  { intros l F i. destruct (Nat.lt_ge_cases i (length l)) as [G|G]; [rewrite Forall_forall in F; apply F, nth_In, G|].
    rewrite nth_overflow by lia. unfold uint8. lia. }
  assert (Fw : Forall uint8 w). { apply Forall_forall. intros c Hc. apply in_map_iff in Hc as (i & <- & _). now apply U. }
  destruct (H (C23_matmul_no_overflow iz wz q w Hi Hw (U _ Fq) (U _ Fw) Ln)) as [-> _]. unfold sat8.
  assert (EA : exact_acc iz wz q w 0 = sumZ_upto (length q) (fun i => (nth i q 0 - iz) * (nth (i * cols + j) raw 0 - wz))); [|now rewrite EA].
  unfold exact_acc, sumZ_upto, sum_upto. rewrite Z.add_0_r. f_equal. apply map_ext_in. intros i Hi'. apply in_seq in Hi'.
  unfold w. rewrite nth_map_seq by lia. do 3 f_equal. lia.
Qed.
(** *** one operator *)
Lemma py3_0 {A} (a b c : A) : py_index [a; b; c] 0 = Ok a. Proof. reflexivity. Qed.
Lemma py3_1 {A} (a b c : A) : py_index [a; b; c] 1 = Ok b. Proof. reflexivity. Qed.
Lemma py3_2 {A} (a b c : A) : py_index [a; b; c] 2 = Ok c. Proof. reflexivity. Qed.
Definition realises (f : fns) (st : settings) (m : omodel) (c : candidate) (v w : value) : Prop :=
  exists o l, build_op f st m c = Ok o /\ build_operator (onnx_builders f) o = Ok l /\ l v = Ok w.
Ltac pick E := unfold realises, build_op; rewrite E;
  repeat match goal with |- context [if chars_eqb ?a ?b then _ else _] =>
    let r := eval vm_compute in (chars_eqb a b) in change (chars_eqb a b) with r; cbv iota end.
Lemma rows2_transpose raw r c : rows2 (transpose (mknd [r; c] (fun idx => nth (flat_idx [r; c] idx) raw 0))) =
  Ok (map (fun j => map (fun i => nth (i * (c * 1) + (j * 1 + 0)) raw 0) (seq 0 r)) (seq 0 c)).
Proof. reflexivity. Qed.
Lemma single_correct f st m n v w : NoDup (map i_name (m_init m)) -> io_ok m n -> nonempty v -> ref_step f m n v w ->
  realises f st m (Single n) v w.
Proof.
  intros N Io Ne H. destruct H as [n a b c o r s z x T I O K|n a b c o r s z q T I O K F|n x T|n x T
    |n a is_ iz_ os_ oz_ o r is iz os oz q T I O K1 K2 F
    |n a is_ iz_ b bs_ bz_ os_ oz_ o r is iz bs bz os oz q bi T I O K1 K2 K3 B D L F Fb
    |n a is_ iz_ w ws_ wz_ os_ oz_ o r is iz ws wz os oz q wi cols T I O K1 K2 K3 B D L C1 Nq Lq F Fb].
  - pick T. unfold build_qdq. rewrite I, O. cbn [rbind]. rewrite (py0 (o :: r) o eq_refl). cbn [rbind]. rewrite (qnode_ok _ _ _ _ _ N K). cbn [rbind].
    eexists. eexists. split; [reflexivity|]. split; [reflexivity|]. cbv beta iota. f_equal. f_equal. apply u8_quantize.
  - pick T. unfold build_qdq. rewrite I, O. cbn [rbind]. rewrite (py0 (o :: r) o eq_refl). cbn [rbind]. rewrite (qnode_ok _ _ _ _ _ N K). cbn [rbind].
    eexists. eexists. split; [reflexivity|]. split; [reflexivity|]. cbv beta iota. f_equal. f_equal.
    apply u8_dequantize; [now apply constants_pos in K|exact F].
  - destruct Io as (i & ir & o & or & I & O & (ji & Fi) & (jo_ & Fo)); [rewrite T; cbn; tauto|].
    pick T. unfold build_base. rewrite I, O, (py0 (i :: ir) i eq_refl), (py0 (o :: or) o eq_refl). cbn [rbind]. rewrite Fi. cbn [rbind].
    rewrite Fo. cbn [rbind]. eexists. eexists. split; [reflexivity|]. split; reflexivity.
  - destruct Io as (i & ir & o & or & I & O & (ji & Fi) & (jo_ & Fo)); [rewrite T; cbn; tauto|].
    pick T. unfold build_base. rewrite I, O, (py0 (i :: ir) i eq_refl), (py0 (o :: or) o eq_refl). cbn [rbind]. rewrite Fi. cbn [rbind].
    rewrite Fo. cbn [rbind]. eexists. eexists. split; [reflexivity|]. split; reflexivity.
  - pick T. unfold build_sigmoid. rewrite I, O. cbn [rbind]. rewrite (py0 (o :: r) o eq_refl). cbn [rbind].
    rewrite (qnode_ok _ _ _ _ _ N K1), (qnode_ok _ _ _ _ _ N K2). cbn [rbind q_scale q_zp].
    assert (X := u8_table (f_sig f) is iz os oz (s_depth st) (s_min st) q (proj1 (constants_pos _ _ _ _ _ K1)) Ne F).
    eexists. eexists. split; [reflexivity|]. split; [reflexivity|]. cbv beta iota.
    match type of X with (do l <- ?A; _) = _ => destruct A as [l|e] eqn:EA; [|discriminate] end. cbn [rbind] in X.
    match goal with |- (do r <- lut_infer ?l' q; _) = _ => replace l' with l end; [now rewrite X|].
    unfold lut_from_node, lut_node in EA. cbn [q_lut lj_reduced lj_offset lj_table] in EA. now injection EA as <-.
  - pick T. unfold build_binary. rewrite I, O. cbn [rbind]. rewrite (py0 (o :: r) o eq_refl). cbn [rbind].
    assert (Lp : length (i_raw bi) = prod (i_dims bi)) by (rewrite D; cbn [prod]; lia).
    rewrite (qnode_ok _ _ _ _ _ N K1), (qnode_ok _ _ _ _ _ N K3), (qnode_tensor_ok _ _ _ _ _ _ _ _ N K2 B Lp) by (rewrite D; discriminate). cbn [rbind].
    assert (Q1 : list_nat_eqb (tolist_shape [length q]) [length q] = true).
    { destruct q as [|x q']; [now destruct Ne|]. cbn [length tolist_shape list_nat_eqb]. now rewrite Nat.eqb_refl. }
    eexists. eexists. split; [reflexivity|]. split.
    + unfold build_operator. cbn [jo_type jo_body]. change (build_operator_kind (str "QLinearAdd")) with (Ok OAdd). cbn [rbind].
      cbn [b_onnx onnx_builders]. unfold load_onnx. cbn [jo_ins].
      rewrite py3_0, py3_1, py3_2.
      cbn [rbind q_tensor q_scale q_zp need nd_shape]. rewrite D. rewrite Q1. reflexivity.
    + cbv beta iota. apply qadd_vec; try assumption; [now apply constants_pos in K1|now apply constants_pos in K2].
  - pick T. unfold build_binary. rewrite I, O. cbn [rbind]. rewrite (py0 (o :: r) o eq_refl). cbn [rbind].
    assert (Lp : length (i_raw wi) = prod (i_dims wi)) by (rewrite D; cbn [prod]; lia).
    rewrite (qnode_ok _ _ _ _ _ N K1), (qnode_ok _ _ _ _ _ N K3), (qnode_tensor_ok _ _ _ _ _ _ _ _ N K2 B Lp) by (rewrite D; discriminate). cbn [rbind].
    assert (Q1 : list_nat_eqb (tolist_shape [cols; length q]) [cols; length q] = true).
    { destruct cols as [|c']; [lia|]. destruct q as [|x q']; [congruence|]. cbn [length tolist_shape list_nat_eqb]. now rewrite !Nat.eqb_refl. }
    eexists. eexists. split; [reflexivity|]. split.
    + unfold build_operator. cbn [jo_type jo_body]. change (build_operator_kind (str "QLinearMatMul")) with (Ok OMatMul). cbn [rbind].
      cbn [b_onnx onnx_builders]. unfold load_onnx. cbn [jo_ins].
      rewrite py3_0, py3_1, py3_2.
      cbn [rbind q_tensor q_scale q_zp need]. rewrite D. cbn [nd_shape transpose rev app]. rewrite Q1, (proj2 (constants_pos _ _ _ _ _ K3)).
      rewrite rows2_transpose. cbn [rbind]. reflexivity.
    + cbv beta iota. rewrite qmm_vec; try assumption; [reflexivity|now apply constants_pos in K1|now apply constants_pos in K2].
Qed.
Lemma fused_correct f st m d t q v v1 v2 w : NoDup (map i_name (m_init m)) ->
  n_type d = str "DequantizeLinear" -> n_type t = str "Tanh" -> n_type q = str "QuantizeLinear" -> nonempty v ->
  ref_step f m d v v1 -> ref_step f m t v1 v2 -> ref_step f m q v2 w -> realises f st m (Fused [d; t; q]) v w.
Proof.
  intros N Td Tt Tq Ne R1 R2 R3.
  destruct R1 as [n a b c o r s z x T I O K|n a b c o r s z codes T I O K F|n x T|n x T|? ? ? ? ? ? ? ? ? ? ? ? ? T|? ? ? ? ? ? ? ? ? ? ? ? ? ? ? ? ? ? ? T|? ? ? ? ? ? ? ? ? ? ? ? ? ? ? ? ? ? ? ? T];
    rewrite T in Td; try discriminate.
  inversion R2 as [n2 a2 b2 c2 o2 r2 s2 z2 x2 T2 I2 O2 K2| |n2 x2 T2|n2 x2 T2| | |]; subst; try congruence; [rewrite T2 in Tt; discriminate| |rewrite T2 in Tt; discriminate].
  inversion R3 as [n3 a3 b3 c3 o3 r3 s3 z3 x3 T3 I3 O3 K3| |n3 x3 T3|n3 x3 T3| | |]; subst; [|rewrite T3 in Tq; discriminate|rewrite T3 in Tq; discriminate].
  assert (B1 : build_qdq m n = Ok (mkjo [mkjn (Some s) (Some z) None None None] [])).
  { unfold build_qdq. rewrite I, O, (py0 (o :: r) o eq_refl). cbn [rbind]. now rewrite (qnode_ok _ _ _ _ _ N K). }
  assert (B3 : build_qdq m q = Ok (mkjo [mkjn (Some s3) (Some z3) None None None] [])).
  { unfold build_qdq. rewrite I3, O3, (py0 (o3 :: r3) o3 eq_refl). cbn [rbind]. now rewrite (qnode_ok _ _ _ _ _ N K3). }
  assert (Or : forall k x y sv zv, constants m x y sv zv -> k = sv -> or_Q (Some k) 1 = sv).
  { intros k x y sv zv Hc ->. unfold or_Q. now rewrite (proj2 (constants_pos _ _ _ _ _ Hc)). }
  assert (Oz : forall k, or_Z (Some k) 0 = k) by (intros k; unfold or_Z; destruct (Z.eqb_spec k 0); lia).
  unfold realises. cbn [build_op]. unfold build_tanh_lut. rewrite py3_0. cbn [rbind]. rewrite B1. cbn [rbind]. rewrite py3_2. cbn [rbind]. rewrite B3.
  cbn [rbind jo_ins]. rewrite !(py0 (_ :: []) _ eq_refl). cbn [rbind q_scale q_zp].
  rewrite (Or s _ _ _ _ K eq_refl), (Or s3 _ _ _ _ K3 eq_refl), !Oz.
  assert (X := u8_table (f_tanh f) s z s3 z3 3 10 codes (proj1 (constants_pos _ _ _ _ _ K)) Ne F).
  eexists. eexists. split; [reflexivity|]. split; [reflexivity|]. cbv beta iota.
  match type of X with (do l <- ?A; _) = _ => destruct A as [l|e] eqn:EA; [|discriminate] end. cbn [rbind] in X.
  match goal with |- (do r <- lut_infer ?l' codes; _) = _ => replace l' with l end.
  - rewrite X. cbn [rbind]. f_equal. f_equal. now rewrite !map_map.
  - unfold lut_from_node, lut_node in EA. cbn [q_lut lj_reduced lj_offset lj_table] in EA. now injection EA as <-.
Qed.
Lemma ref_types f m n v w : ref_step f m n v w -> In (n_type n) convertible_types.
Proof. intros H. destruct H as [? ? ? ? ? ? ? ? ? T|? ? ? ? ? ? ? ? ? T|? ? T|? ? T|? ? ? ? ? ? ? ? ? ? ? ? ? T|? ? ? ? ? ? ? ? ? ? ? ? ? ? ? ? ? ? ? T|? ? ? ? ? ? ? ? ? ? ? ? ? ? ? ? ? ? ? ? T]; rewrite T; unfold convertible_types; cbn; tauto. Qed.
Lemma convertible_no_dot t : In t convertible_types -> no_dot t.
Proof. unfold convertible_types, no_dot. cbn. intros H D. repeat (destruct H as [<-|H]; [cbn in D; intuition discriminate|]). contradiction. Qed.
Lemma convertible_prefix t : In t convertible_types -> prefix_of (str "QuantizeLinear") t = true -> t = str "QuantizeLinear".
Proof. unfold convertible_types. cbn [In]. intros H D. repeat (destruct H as [<-|H]; [first [reflexivity|discriminate]|]). contradiction. Qed.
Lemma ok_after_triple m d t q r : n_type d = str "DequantizeLinear" -> n_type t = str "Tanh" -> n_type q = str "QuantizeLinear" ->
  ok_nodes m (d :: t :: q :: r) -> ok_nodes m r.
Proof.
  intros A B C H. inversion H as [|d0 t0 q0 r0 A0 B0 C0 H0|n0 r0 Io H1]; subst; [exact H0|].
  inversion H1 as [|d1 t1 q1 r1 A1 B1 C1 H2|n2 r2 Io2 H3]; subst; [rewrite B in A1; discriminate|].
  inversion H3 as [|d3 t3 q3 r3 A3 B3 C3 H4|n4 r4 Io4 H5]; subst; [rewrite C in A3; discriminate|exact H5].
Qed.
Lemma ok_head m n r : (forall t q r', r = t :: q :: r' -> ~ is_triple n t q) -> ok_nodes m (n :: r) -> io_ok m n /\ ok_nodes m r.
Proof.
  intros H O. inversion O as [|d t q r' A B C O'|n' r' Io O']; subst; [|now split].
  exfalso. apply (H t q r' eq_refl). split; [exact A|]. split; [exact B|]. rewrite C. reflexivity.
Qed.
Lemma fuses_realised f st m ns cs : NoDup (map i_name (m_init m)) -> fuses ns cs -> ok_nodes m ns -> forall v w, ref_run f m ns v w ->
  exists g ls t, mapM (build_op f st m) cs = Ok g /\ mapM (build_operator (onnx_builders f)) g = Ok ls /\ runs ls v t w.
Proof.
  intros N Fz. induction Fz as [|d t q rest cs (Td & Tt & Pq) Fz IH|n rest cs Nt Fz IH]; intros Ok_ v w R.
  - inversion R; subst. exists [], [], []. repeat split. constructor.
  - inversion R as [|? ? ? v1 ? Ne1 S1 R1]; subst. inversion R1 as [|? ? ? v2 ? Ne2 S2 R2]; subst. inversion R2 as [|? ? ? v3 ? Ne3 S3 R3]; subst.
    assert (Tq : n_type q = str "QuantizeLinear") by (apply convertible_prefix; [eapply ref_types; eauto|exact Pq]).
    destruct (fused_correct f st m d t q v v1 v2 v3 N Td Tt Tq Ne1 S1 S2 S3) as (o & l & B & L & E).
    destruct (IH (ok_after_triple _ _ _ _ _ Td Tt Tq Ok_) v3 w R3) as (g & ls & tr & Bg & Lg & Rg).
    exists (o :: g), (l :: ls), (v3 :: tr). cbn [mapM]. rewrite B. cbn [rbind]. rewrite Bg. cbn [rbind]. rewrite L. cbn [rbind]. rewrite Lg.
    split; [reflexivity|]. split; [reflexivity|]. econstructor; eauto.
  - destruct (ok_head _ _ _ Nt Ok_) as [Io Ok2]. inversion R as [|? ? ? v1 ? Ne1 S1 R1]; subst.
    destruct (single_correct f st m n v v1 N Io Ne1 S1) as (o & l & B & L & E).
    destruct (IH Ok2 v1 w R1) as (g & ls & tr & Bg & Lg & Rg).
    exists (o :: g), (l :: ls), (v1 :: tr). cbn [mapM]. rewrite B. cbn [rbind]. rewrite Bg. cbn [rbind]. rewrite L. cbn [rbind]. rewrite Lg.
    split; [reflexivity|]. split; [reflexivity|]. econstructor; eauto.
Qed.
(** The converted and loaded network computes, for every sample, what the ONNX graph means: fusing the tanh triple and replacing
    QLinearSigmoid by a (reduced) table changes nothing.  The graph must start with QuantizeLinear (see C57_head_fusion_changes_mode), the names
    of constants must be unique and the tensors of unfused Tanh and Softmax nodes findable (C46). *)
Theorem C57_conversion_correct : forall f st toi8 m n0 ns v w,
  NoDup (map i_name (m_init m)) -> m_nodes m = n0 :: ns -> n_type n0 = str "QuantizeLinear" -> ok_nodes m (m_nodes m) ->
  m_inputs m <> [] -> Forall (fun i => (2 <= length (v_dims i))%nat) (m_inputs m) ->
  ref_run f m (m_nodes m) v w -> execute f st toi8 m v = Ok w.
Proof.
  intros f st toi8 m n0 ns v w N Em T0 Ok_ Ni Fi R.
  assert (Nd : Forall (fun n => no_dot (n_type n)) (m_nodes m)).
  { clear - R. revert R. generalize (m_nodes m). intros l R. induction R; constructor; [|assumption].
    apply convertible_no_dot. eapply ref_types; eauto. }
  destruct (C45_every_node_once (m_nodes m)) as (cs & P & _).
  assert (Fz : fuses (m_nodes m) cs) by now apply C45_fuses_exactly.
  destruct (fuses_realised f st m _ _ N Fz Ok_ v w R) as (g & ls & t & Bg & Lg & Rg).
  unfold execute, model2json, build_graph. unfold partition in P. rewrite P, Bg. cbn [rbind].
  assert (Li : exists li, mapM layer_info_to_tensor (m_inputs m) = Ok li /\ li <> []).
  { clear - Ni Fi. destruct (m_inputs m) as [|i r]; [congruence|]. clear Ni.
    assert (G : forall l, Forall (fun i => (2 <= length (v_dims i))%nat) l -> exists li, mapM layer_info_to_tensor l = Ok li /\ length li = length l).
    { induction 1 as [|x l Hx Hl (li & E & L)]; [exists []; split; reflexivity|]. cbn [mapM]. unfold layer_info_to_tensor at 1.
      destruct (v_dims x) as [|a [|b dr]] eqn:D; cbn in Hx; try lia.
      assert (P1 : py_index (a :: b :: dr) 1 = Ok b) by (apply py_index_in_range; [lia|reflexivity]). rewrite P1. cbn [rbind]. rewrite E. cbn [rbind].
      eexists. split; [reflexivity|]. cbn. lia. }
    destruct (G (i :: r) Fi) as (li & E & L). exists li. split; [exact E|]. intros ->. discriminate. }
  destruct Li as (li & Li & Nl). rewrite Li. cbn [rbind].
  assert (First : exists o g', g = o :: g' /\ jo_name o = str "QuantizeLinear").
  { rewrite Em in Fz. inversion Fz as [|d t' q rest cs' (Td & _) _|n rest cs' _ _]; subst; [rewrite T0 in Td; discriminate|]. cbn [mapM] in Bg.
    destruct (build_op f st m (Single n0)) as [o|] eqn:B; cbn [rbind] in Bg; [|discriminate].
    destruct (mapM (build_op f st m) cs') as [g'|]; cbn [rbind] in Bg; [|discriminate]. injection Bg as <-.
    exists o, g'. split; [reflexivity|]. apply build_op_type in B as (_ & -> & _). cbn [exported]. rewrite T0. reflexivity. }
  destruct First as (o & g' & -> & No).
  unfold seq_init, to_jnet. cbn [jt_input jt_output jt_graph jt_engine j2_in j2_out j2_graph].
  destruct li as [|x li]; [congruence|]. cbn [map]. rewrite !(py0 (_ :: _) _ eq_refl). cbn [rbind].
  rewrite No. change (get_engine (onnx_builders f) (str "ONNX")) with (Ok (build_operator (onnx_builders f))). cbn [rbind]. rewrite Lg. cbn [rbind].
  set (sn := mkseq _ _ _ ls []). assert (Hq : sn_quant sn = true) by reflexivity.
  change ls with (sn_layers sn) in Rg. apply (C20_infer_composes value toi8 sn v t w Hq) in Rg. now rewrite Rg.
Qed.
(** If the fused triple comes first, the file's first operator is no longer named after a quantization, so the engine applies its
    legacy conversion to the input before the table, which the unfused graph would not: *)
Theorem C57_head_fusion_changes_mode : forall f st m d t q rest j n, m_nodes m = d :: t :: q :: rest ->
  Forall (fun n => no_dot (n_type n)) (m_nodes m) -> is_triple d t q ->
  model2json f st m = Ok j -> seq_init (onnx_builders f) (to_jnet j) = Ok n -> sn_quant n = false.
Proof.
  intros f st m d t q rest j n Em Nd T E I. unfold model2json, build_graph in E.
  destruct (C45_every_node_once (m_nodes m)) as (cs & P & _). assert (Fz : fuses (m_nodes m) cs) by now apply C45_fuses_exactly.
  unfold partition in P. rewrite P in E. rewrite Em in Fz. inversion Fz as [|d0 t0 q0 r0 cs' _ _|n0 r0 cs' Hn _]; subst; [|exfalso; eapply Hn; eauto].
  destruct (mapM (build_op f st m) (Fused [d; t; q] :: cs')) as [g|] eqn:M; cbn [rbind] in E; [|discriminate].
  destruct (mapM layer_info_to_tensor (m_inputs m)) as [li|]; cbn [rbind] in E; [|discriminate].
  assert (Ej : mkj2 g li li = j) by congruence. subst j. cbn [mapM] in M.
  destruct (build_op f st m (Fused [d; t; q])) as [o|] eqn:B; cbn [rbind] in M; [|discriminate].
  destruct (mapM (build_op f st m) cs') as [g'|]; cbn [rbind] in M; [|discriminate]. assert (Eg : o :: g' = g) by congruence. subst g.
  apply build_op_type in B as (_ & No & _). unfold seq_init, to_jnet in I. cbn [jt_input jt_output jt_graph jt_engine j2_in j2_out j2_graph] in I.
  destruct li as [|x li]; [discriminate|]. cbn [map] in I. rewrite !(py0 (_ :: _) _ eq_refl) in I. cbn [rbind] in I.
  change (get_engine (onnx_builders f) (str "ONNX")) with (Ok (build_operator (onnx_builders f))) in I. cbn [rbind] in I.
  destruct (mapM (build_operator (onnx_builders f)) (o :: g')) as [ls|]; cbn [rbind] in I; [|discriminate]. injection I as <-.
  cbn [sn_quant]. rewrite No. reflexivity.
Qed.

(** A complete graph meeting the hypotheses: quantize, matrix product, bias, tanh triple, sigmoid, dequantize, softmax. *)
Definition cst (name : chars) (s : Q) (z : Z) : init := mkinit name [] [] [s] [z].
Definition ex_model : omodel := mkom
  [mkonode (str "QuantizeLinear") [str "x"; str "s1"; str "z1"] [str "a"];
   mkonode (str "QLinearMatMul") [str "a"; str "s1"; str "z1"; str "W"; str "s2"; str "z2"; str "s2"; str "z2"] [str "b"];
   mkonode (str "QLinearAdd") [str "b"; str "s2"; str "z2"; str "B"; str "s1"; str "z1"; str "s2"; str "z2"] [str "c"];
   mkonode (str "DequantizeLinear") [str "c"; str "s2"; str "z2"] [str "d"];
   mkonode (str "Tanh") [str "d"] [str "e"];
   mkonode (str "QuantizeLinear") [str "e"; str "s1"; str "z1"] [str "f"];
   mkonode (str "QLinearSigmoid") [str "f"; str "s1"; str "z1"; str "s2"; str "z2"] [str "g"];
   mkonode (str "DequantizeLinear") [str "g"; str "s2"; str "z2"] [str "h"];
   mkonode (str "Softmax") [str "h"] [str "y"]]
  [cst (str "s1") (1#10) 0; cst (str "z1") 1 100; cst (str "s2") (1#20) 0; cst (str "z2") 1 128;
   mkinit (str "W") [10; 200; 30; 40; 128; 60] [3; 2]%nat [] []; mkinit (str "B") [7; 250] [2]%nat [] []]
  [mkvinfo (str "a") [1; 3]; mkvinfo (str "h") [1; 2]] [mkvinfo (str "x") [1; 3]] [mkvinfo (str "y") [1; 2]].
Definition ex_fns : fns := mkfns (fun x => x / (1 + x * x))%Q (fun x => 1 / (2 + x * x))%Q (fun x => 1 + x * x)%Q.
Lemma ex_run : exists w, ref_run ex_fns ex_model (m_nodes ex_model) (Floats [3#10; -2; 7#3]%Q) w /\ nonempty w.
Proof.
  assert (K1 : constants ex_model (str "s1") (str "z1") (1#10) 100).
  { exists (cst (str "s1") (1#10) 0), (cst (str "z1") 1 100). split; [split; [now left|reflexivity]|]. split; [split; [now right; left|reflexivity]|].
    split; [reflexivity|]. split; [reflexivity|]. split; [unfold uint8; lia|discriminate]. }
  assert (K2 : constants ex_model (str "s2") (str "z2") (1#20) 128).
  { exists (cst (str "s2") (1#20) 0), (cst (str "z2") 1 128). split; [split; [now right; right; left|reflexivity]|]. split; [split; [now right; right; right; left|reflexivity]|].
    split; [reflexivity|]. split; [reflexivity|]. split; [unfold uint8; lia|discriminate]. }
  assert (S8 : forall A (h : A -> Z) l, Forall uint8 (map (fun x => sat8 (h x)) l)).
  { intros A h l. apply Forall_forall. intros x Hx. apply in_map_iff in Hx as (y & <- & _). unfold sat8, clamp, uint8.
    destruct (Z.ltb_spec (h y) 0); [lia|]. destruct (Z.ltb_spec 255 (h y)); lia. }
  eexists. split.
  - cbn [m_nodes ex_model].
    eapply rr_cons; [discriminate|eapply rs_quantize; [reflexivity|reflexivity|reflexivity|exact K1]|].
    eapply rr_cons; [discriminate|eapply (rs_matmul _ _ _ _ _ _ _ _ _ _ _ _ _ _ _ _ _ _ _ _ (mkinit (str "W") [10; 200; 30; 40; 128; 60] [3; 2]%nat [] []) 2);
      [reflexivity|reflexivity|reflexivity|exact K1|exact K2|exact K2|split; [now do 4 right; left|reflexivity]|reflexivity|reflexivity|lia|discriminate|cbn; lia|apply S8|
       repeat constructor; unfold uint8; lia]|].
    eapply rr_cons; [discriminate|eapply (rs_add _ _ _ _ _ _ _ _ _ _ _ _ _ _ _ _ _ _ _ _ (mkinit (str "B") [7; 250] [2]%nat [] []));
      [reflexivity|reflexivity|reflexivity|exact K2|exact K1|exact K2|split; [now do 5 right; left|reflexivity]|reflexivity|reflexivity|apply S8|
       repeat constructor; unfold uint8; lia]|].
    eapply rr_cons; [discriminate|eapply rs_dequantize; [reflexivity|reflexivity|reflexivity|exact K2|apply S8]|].
    eapply rr_cons; [discriminate|eapply rs_tanh; reflexivity|].
    eapply rr_cons; [discriminate|eapply rs_quantize; [reflexivity|reflexivity|reflexivity|exact K1]|].
    eapply rr_cons; [discriminate|eapply rs_sigmoid; [reflexivity|reflexivity|reflexivity|exact K1|exact K2|apply S8]|].
    eapply rr_cons; [discriminate|eapply rs_dequantize; [reflexivity|reflexivity|reflexivity|exact K2|apply S8]|].
    eapply rr_cons; [discriminate|eapply rs_softmax; reflexivity|]. apply rr_nil.
  - discriminate.
Qed.
Example C45_example :
  NoDup (map i_name (m_init ex_model)) /\ ok_nodes ex_model (m_nodes ex_model) /\
  (exists w, ref_run ex_fns ex_model (m_nodes ex_model) (Floats [3#10; -2; 7#3]%Q) w) /\
  option_map (fun r => match r with Ok cs => length cs | _ => 0%nat end) (partition (m_nodes ex_model)) = Some 7%nat.
Proof.
  split; [|split; [|split]].
  - cbn. repeat constructor; cbn; intuition discriminate.
  - cbn [m_nodes ex_model]. do 3 (apply ok_plain; [intros H; cbn in H; intuition discriminate|]).
    apply ok_fused; [reflexivity|reflexivity|reflexivity|]. do 2 (apply ok_plain; [intros H; cbn in H; intuition discriminate|]).
    apply ok_plain; [|constructor]. intros _. exists (str "h"), [], (str "y"), []. split; [reflexivity|]. split; [reflexivity|].
    split; eexists; reflexivity.
  - destruct ex_run as (w & H & _). now exists w.
  - vm_compute. reflexivity.
Qed.

(** ** C46 *)
(** A tensor described in value_info at a position other than the first resolves to its own description. *)
Theorem C46_listed_tensor : forall m i v, NoDup (map v_name (m_vinfo m)) -> nth_error (m_vinfo m) (S i) = Some v -> (2 <= length (v_dims v))%nat ->
  exists d, nth_error (v_dims v) 1 = Some d /\ build_base_node m (v_name v) = Ok (mkjn None None None None (Some (v_name v, d))).
Proof.
  intros m i v N E L. destruct (v_dims v) as [|a [|b r]] eqn:D; cbn in L; try lia. exists b. split; [reflexivity|].
  unfold build_base_node. rewrite (last_idx_unique v_name (v_name v) _ _ _ N E eq_refl), E. cbn [rbind].
  unfold layer_info_to_tensor. rewrite D. assert (P : py_index (a :: b :: r) 1 = Ok b) by (apply py_index_in_range; [lia|reflexivity]).
  now rewrite P.
Qed.
(** The first entry of value_info is never found there: unless the tensor is the graph's first input or output the converter
    raises ValueError for it, although it is described. *)
Theorem C46_first_entry_not_found : forall m v rest i ir o or, NoDup (map v_name (m_vinfo m)) -> m_vinfo m = v :: rest ->
  m_inputs m = i :: ir -> m_outputs m = o :: or -> v_name v <> v_name i -> v_name v <> v_name o ->
  build_base_node m (v_name v) = Err EValueError.
Proof.
  intros m v rest i ir o or N E Ei Eo Ni No. unfold build_base_node.
  rewrite (last_idx_unique v_name (v_name v) (m_vinfo m) 0 v N) by (rewrite ?E; reflexivity).
  rewrite Ei, Eo, !(py0 (_ :: _) _ eq_refl). cbn [rbind].
  destruct (chars_eqb (v_name v) (v_name i)) eqn:A; [apply chars_eqb_eq in A; contradiction|].
  cbn [rbind]. destruct (chars_eqb (v_name v) (v_name o)) eqn:B; [apply chars_eqb_eq in B; contradiction|]. reflexivity.
Qed.
(** Exactly which names can be converted. *)
Theorem C46_findable_iff : forall m k i ir o or, NoDup (map v_name (m_vinfo m)) -> m_inputs m = i :: ir -> m_outputs m = o :: or ->
  (findable m k <->
   (exists j v, nth_error (m_vinfo m) (S j) = Some v /\ v_name v = k /\ (2 <= length (v_dims v))%nat) \/
   ((forall j v, nth_error (m_vinfo m) (S j) = Some v -> v_name v <> k) /\
    ((k = v_name i /\ (2 <= length (v_dims i))%nat) \/ (k <> v_name i /\ k = v_name o /\ (2 <= length (v_dims o))%nat)))).
Proof.
  intros m k i ir o or N Ei Eo.
  assert (LT : forall v, (exists t, layer_info_to_tensor v = Ok t) <-> (2 <= length (v_dims v))%nat).
  { intros v. unfold layer_info_to_tensor. destruct (v_dims v) as [|a [|b r]].
    - split; [intros [t H]; discriminate|cbn; lia].
    - split; [intros [t H]; discriminate|cbn; lia].
    - assert (P : py_index (a :: b :: r) 1 = Ok b) by (apply py_index_in_range; [lia|reflexivity]). rewrite P. cbn. split; [lia|eauto]. }
  assert (LT' : forall v, (exists j, (do t <- layer_info_to_tensor v; Ok (mkjn None None None None (Some t))) = Ok j) <-> (2 <= length (v_dims v))%nat).
  { intros v. rewrite <- LT. destruct (layer_info_to_tensor v); cbn [rbind]; [split; eauto|split; intros [? H]; discriminate]. }
  unfold findable, build_base_node. rewrite Ei, Eo, !(py0 (_ :: _) _ eq_refl). cbn [rbind].
  assert (C : (exists j v, nth_error (m_vinfo m) (S j) = Some v /\ v_name v = k /\ last_idx v_name k (m_vinfo m) 0 = Some (S j)) \/
              ((forall j v, nth_error (m_vinfo m) (S j) = Some v -> v_name v <> k) /\
               match last_idx v_name k (m_vinfo m) 0 with Some (S _) => False | _ => True end)).
  { destruct (last_idx v_name k (m_vinfo m) 0) as [[|j]|] eqn:L.
    - right. split; [|exact I]. intros j v E K. rewrite (last_idx_unique v_name k _ _ _ N E K) in L. discriminate.
    - left. assert (X : exists v, nth_error (m_vinfo m) (S j) = Some v /\ v_name v = k).
      { clear - L. remember (S j) as q. clear Heqq. revert q L. induction (m_vinfo m) as [|a l IH]; intros q L; [discriminate|]. cbn [last_idx] in L.
        rewrite last_idx_base in L. destruct (last_idx v_name k l 0) as [p|] eqn:P; cbn [option_map] in L.
        - injection L as <-. destruct (IH p eq_refl) as (v & E & K). now exists v.
        - destruct (chars_eqb (v_name a) k) eqn:A; [|discriminate]. injection L as <-. apply chars_eqb_eq in A. now exists a. }
      destruct X as (v & E & K). now exists j, v.
    - right. split; [|exact I]. intros j v E K. rewrite (last_idx_unique v_name k _ _ _ N E K) in L. discriminate. }
  destruct C as [(j & v & E & K & L)|[H L]].
  - rewrite L, E. cbn [rbind]. rewrite LT'. split; [intros; left; now exists j, v|].
    intros [(j' & v' & E' & K' & D)|[H _]]; [|exfalso; eapply H; eauto].
    assert (L' := last_idx_unique v_name k _ _ _ N E' K'). rewrite L in L'. injection L' as <-. rewrite E in E'. injection E' as <-. exact D.
  - assert (Z : match last_idx v_name k (m_vinfo m) 0 with
          | Some (S i0) => match nth_error (m_vinfo m) (S i0) with Some v => Ok v | None => Err EIndexError end
          | _ => if chars_eqb k (v_name i) then Ok i else if chars_eqb k (v_name o) then Ok o else Err EValueError end =
          if chars_eqb k (v_name i) then Ok i else if chars_eqb k (v_name o) then Ok o else Err EValueError).
    { destruct (last_idx v_name k (m_vinfo m) 0) as [[|]|]; [reflexivity|destruct L|reflexivity]. }
    rewrite Z. clear Z L. destruct (chars_eqb k (v_name i)) eqn:A.
    + apply chars_eqb_eq in A. cbn [rbind]. rewrite LT'. split; [intros D; right; split; [exact H|left; now split]|].
      intros [(j & v & E & K & D)|[_ [[_ D]|[X _]]]]; [exfalso; eapply H; eauto|exact D|contradiction].
    + assert (A' : k <> v_name i) by (intros ->; rewrite chars_eqb_refl in A; discriminate).
      destruct (chars_eqb k (v_name o)) eqn:B.
      * apply chars_eqb_eq in B. cbn [rbind]. rewrite LT'. split; [intros D; right; split; [exact H|right; repeat split; assumption]|].
        intros [(j & v & E & K & D)|[_ [[X _]|[_ [_ D]]]]]; [exfalso; eapply H; eauto|contradiction|exact D].
      * assert (B' : k <> v_name o) by (intros ->; rewrite chars_eqb_refl in B; discriminate).
        cbn [rbind]. split; [intros [? X]; discriminate|].
        intros [(j & v & E & K & D)|[_ [[X _]|[_ [X _]]]]]; [exfalso; eapply H; eauto|contradiction|contradiction].
Qed.
(** A Tanh or Softmax node that is not fused becomes an operator of the same type whose single input describes the node's first input
    tensor and whose single output describes its first output tensor (names and second extents). *)
Theorem C46_base_operator : forall f st m n j, n_type n = str "Tanh" \/ n_type n = str "Softmax" ->
  build_op f st m (Single n) = Ok j ->
  exists i ir o or a b, n_in n = i :: ir /\ n_out n = o :: or /\ build_base_node m i = Ok a /\ build_base_node m o = Ok b /\
    j = mkjop (n_type n) (n_type n) (mkjo [a] [b]).
Proof.
  intros f st m n j T E.
  assert (X : (do x <- build_base m n; Ok (mkjop (n_type n) (n_type n) x)) = Ok j).
  { cbn [build_op] in E. destruct T as [T|T]; rewrite T in *; exact E. }
  clear E T. unfold build_base in X.
  destruct (n_in n) as [|i ir]; [discriminate X|]. rewrite (py0 (i :: ir) i eq_refl) in X. cbn [rbind] in X.
  destruct (n_out n) as [|o or]; [discriminate X|]. rewrite (py0 (o :: or) o eq_refl) in X. cbn [rbind] in X.
  destruct (build_base_node m i) as [a|] eqn:A; cbn [rbind] in X; [|discriminate].
  destruct (build_base_node m o) as [b|] eqn:B; cbn [rbind] in X; [|discriminate].
  exists i, ir, o, or, a, b. split; [reflexivity|]. split; [reflexivity|]. split; [exact A|]. split; [exact B|]. congruence.
Qed.
(** The exported description of the outputs is that of the inputs. *)
Theorem C46_output_is_input : forall f st m j, model2json f st m = Ok j -> j2_out j = j2_in j /\
  Forall2 (fun v p => fst p = v_name v /\ nth_error (v_dims v) 1 = Some (snd p)) (m_inputs m) (j2_out j).
Proof.
  intros f st m j E. unfold model2json in E. destruct (build_graph f st m) as [g|]; cbn [rbind] in E; [|discriminate].
  destruct (mapM layer_info_to_tensor (m_inputs m)) as [li|] eqn:M; cbn [rbind] in E; [|discriminate].
  assert (Ej : mkj2 g li li = j) by congruence. subst j. cbn [j2_in j2_out]. split; [reflexivity|]. clear - M. revert li M.
  induction (m_inputs m) as [|v l IH]; intros li M; cbn [mapM] in M; [injection M as <-; constructor|].
  destruct (layer_info_to_tensor v) as [p|] eqn:P; cbn [rbind] in M; [|discriminate].
  destruct (mapM layer_info_to_tensor l) as [r|]; cbn [rbind] in M; [|discriminate]. injection M as <-. constructor; [|now apply IH].
  unfold layer_info_to_tensor in P. destruct (v_dims v) as [|a [|b dr]]; [discriminate|discriminate|].
  assert (P1 : py_index (a :: b :: dr) 1 = Ok b) by (apply py_index_in_range; [lia|reflexivity]). rewrite P1 in P. cbn [rbind] in P.
  injection P as <-. split; reflexivity.
Qed.
(** Constants: a missing name is a KeyError; of several entries with one name the last is used; scale and zero point must be stored
    in the typed fields (IndexError when they are in raw_data only). *)
Theorem C46_missing_constant : forall m t s z tr, ~ In s (map i_name (m_init m)) -> build_quantized_node m t s z tr = Err EKeyError.
Proof. intros m t s z tr H. unfold build_quantized_node, get_init. apply (last_idx_none i_name s (m_init m) 0) in H. now rewrite H. Qed.
Theorem C46_last_duplicate_wins : forall m pre i post, m_init m = pre ++ i :: post -> ~ In (i_name i) (map i_name post) -> get_init m (i_name i) = Ok i.
Proof.
  intros m pre i post E H. unfold get_init. rewrite E.
  assert (L : last_idx i_name (i_name i) (pre ++ i :: post) 0 = Some (length pre)).
  { clear E. induction pre as [|a pre IH]; cbn [app last_idx].
    - apply (last_idx_none i_name _ post 1) in H. rewrite H. now rewrite chars_eqb_refl.
    - rewrite last_idx_base, IH. reflexivity. }
  rewrite L. rewrite nth_error_app2 by lia. now rewrite Nat.sub_diag.
Qed.
Theorem C46_raw_scale_rejected : forall m s z si zi, NoDup (map i_name (m_init m)) -> is_init m s si -> is_init m z zi -> i_float si = [] ->
  build_quantized_node m None s z false = Err EIndexError.
Proof.
  intros m s z si zi N Hs Hz E. unfold build_quantized_node. rewrite (get_init_ok _ _ _ N Hs), (get_init_ok _ _ _ N Hz). cbn [rbind]. rewrite E. reflexivity.
Qed.
(** A constant operand without dimensions (a scalar) is refused. *)
Theorem C46_scalar_operand_refused : forall m t s z sv zv ti tr, NoDup (map i_name (m_init m)) -> constants m s z sv zv -> is_init m t ti ->
  i_dims ti = [] -> length (i_raw ti) = 1%nat -> build_quantized_node m (Some t) s z tr = Err ETypeError.
Proof.
  intros m t s z sv zv ti tr N (si & zi & Hs & Hz & _) Ht D L. unfold build_quantized_node.
  rewrite (get_init_ok _ _ _ N Hs), (get_init_ok _ _ _ N Hz). cbn [rbind]. rewrite (get_init_ok _ _ _ N Ht). cbn [rbind].
  unfold reshape. rewrite L, D. destruct tr; reflexivity.
Qed.
(** Exported matrices are transposed: entry (j, i) of the file is entry (i, j) of the initializer. *)
Theorem C46_matrix_transposed : forall m t s z sv zv ti r c, NoDup (map i_name (m_init m)) -> constants m s z sv zv -> is_init m t ti ->
  i_dims ti = [r; c] -> length (i_raw ti) = (r * c)%nat ->
  exists j a, build_quantized_node m (Some t) s z true = Ok j /\ q_scale j = Some sv /\ q_zp j = Some zv /\ q_tensor j = Some a /\
    nd_shape a = [c; r] /\ forall i k, nd_get a [k; i] = nth (i * c + k) (i_raw ti) 0.
Proof.
  intros m t s z sv zv ti r c N K T D L. eexists. eexists. rewrite (qnode_tensor_ok _ _ _ _ _ _ _ _ N K T) by (rewrite D; first [discriminate | cbn; lia]).
  split; [reflexivity|]. split; [reflexivity|]. split; [reflexivity|]. split; [reflexivity|]. rewrite D. split; [reflexivity|].
  intros i k. cbn [transpose nd_get rev app flat_idx prod]. f_equal. lia.
Qed.
Example C46_example :
  build_base_node ex_model (str "a") = Err EValueError /\ findable ex_model (str "h") /\ findable ex_model (str "x") /\
  NoDup (map v_name (m_vinfo ex_model)) /\
  match model2json ex_fns (mkset 3 0) ex_model with Ok j => j2_out j = [(str "x", 3)] | Err _ => False end.
Proof.
  split; [reflexivity|]. split; [eexists; reflexivity|]. split; [eexists; reflexivity|].
  split; [cbn; repeat constructor; cbn; intuition discriminate|]. vm_compute. reflexivity.
Qed.
