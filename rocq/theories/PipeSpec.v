(** Specification vocabulary for properties C58-C60 (PropPipe.v): the float network, the conditions and the error bound. *)
From Verif Require Import Base BaseProofs DtypeModel DtypeProofs QuantModel QuantProofs LutModel LutProofs FcModel FcProofs FcLayer
  EngineModel EngineProofs DistModel DistProofs BuildModel PipeModel PropCore PropFc PropEngine PropDist PropNodeLut.
From Verif Require NodeModel.
From Coq Require Import Lqa Qminmax.
Open Scope Z_scope.
Open Scope list_scope.

(** ** Specification: the float network *)
(** column j of a matrix *)
Definition column (j : nat) (m : list (list Q)) : list Q := map (fun r => nth j r 0%Q) m.
(** x @ kernel + bias, neuron by neuron; a layer without bias has bias 0 *)
Definition bias_at (l : kdense) (j : nat) : Q := match kd_bias l with Some b => nth j b 0%Q | None => 0%Q end.
Definition affine (l : kdense) (x : list Q) : list Q :=
  map (fun j => dense x (column j (kd_kernel l)) (bias_at l j)) (seq 0 (kd_units l)).
(** activations by (upper-case) name: linear layers, and softmax layers whose output is read as logits, apply no function *)
Definition plain_act (l : kdense) : Prop := upper (kd_act l) = str "LINEAR" \/ upper (kd_act l) = str "SOFTMAX".
Definition table_act (l : kdense) : Prop := upper (kd_act l) = str "TANH" \/ upper (kd_act l) = str "SIGMOID".
Definition is_table (l : kdense) : bool := chars_eqb (upper (kd_act l)) (str "TANH") || chars_eqb (upper (kd_act l)) (str "SIGMOID").
Definition float_layer (l : kdense) (x : list Q) : list Q := if is_table l then map (kd_fn l) (affine l x) else affine l x.
Fixpoint denses (ls : list plyr) : list kdense :=
  match ls with [] => [] | PDense l :: r => l :: denses r | PSkip :: r => denses r end.
(** operators exported for the layers *)
Definition op_count (ls : list kdense) : nat := fold_right (fun l k => ((if is_table l then 2 else 1) + k)%nat) 0%nat ls.
Definition float_net (ls : list kdense) (x : list Q) : list Q := fold_left (fun v l => float_layer l v) ls x.

(** shapes of a Keras stack of dense layers with n inputs *)
Fixpoint shaped (n : nat) (ls : list kdense) : Prop :=
  match ls with
  | [] => True
  | l :: r => (0 < n)%nat /\ (0 < kd_units l)%nat /\ length (kd_kernel l) = n /\
      (forall row, In row (kd_kernel l) -> length row = kd_units l) /\
      (forall b, kd_bias l = Some b -> length b = kd_units l) /\ shaped (kd_units l) r
  end.
(** the convex hull of 0 and the data *)
Definition in_hull (data : list Q) (v : Q) : Prop :=
  exists a b, In a (0%Q :: data) /\ In b (0%Q :: data) /\ (a <= v)%Q /\ (v <= b)%Q.
(** every intermediate value for input x stays in the hull of the corresponding values for the calibration rows *)
Fixpoint covered (ls : list kdense) (rows : list (list Q)) (x : list Q) : Prop :=
  (forall v, In v x -> in_hull (concat rows) v) /\
  match ls with
  | [] => True
  | l :: r => (forall v, In v (affine l x) -> in_hull (concat (map (affine l) rows)) v) /\
              covered r (map (float_layer l) rows) (float_layer l x)
  end.

(** ** Specification: configurations and bounds *)
(** the kernel may be symmetric or (the default) not; [q] is the dtype of the bias-add and activation nodes *)
Record good_cfg (d : densecfg) (qk q qb : gdtype) : Prop := {
  gc_opt : d_opt d = None;
  gc_k : parse_dtype (d_kernel d) = Ok qk; gc_a : parse_dtype (d_act d) = Ok q;
  gc_ba : parse_dtype (d_bias_add d) = Ok q; gc_b : parse_dtype (d_bias d) = Ok qb;
  gc_nk : narrow qk; gc_n : narrow q; gc_nb : within_int32 qb;
  gc_pos : 0 < gmax qk;
  gc_sym : if d_sym d then gmin qk <= - gmax qk else gmin qk = - gmax qk - 1 }.
Definition good_layer (c : qcfg) (l : kdense) : Prop :=
  (plain_act l \/ table_act l) /\ exists d qk q qb, layer_cfg c (kd_name l) = CDense d /\ good_cfg d qk q qb.

(** conditions on the exported file, fully connected operators only (inputs: input, kernel, bias):
    the output multiplier is neither too small (C17: silent layer) nor too large (rejected), no bias code is saturated,
    and the worst case accumulator fits in 32 bits *)
Definition fc_op_ok (op : jop pbody) : Prop :=
  forall i k b o w bv di dk db, pb_in (jo_body op) = [i; k; b] -> pb_out (jo_body op) = [o] ->
    pn_tensor k = PMat w -> pn_tensor b = PVec bv ->
    parse_dtype (pn_dtype i) = Ok di -> parse_dtype (pn_dtype k) = Ok dk -> parse_dtype (pn_dtype b) = Ok db ->
    (1 # 1000000 <= pn_scale i * pn_scale k / pn_scale o)%Q /\ (pn_scale i * pn_scale k / pn_scale o < inject_Z (2 ^ 29))%Q /\
    forall v, In v bv -> gmin db < v < gmax db /\
      Z.of_nat (width w) * ((gmax di - gmin di) * Z.max (gmax dk) (- gmin dk)) + Z.abs v <= 2 ^ 31.

Definition abssum (x : list Q) : Q := sumQ (map Qabs x).
(** the largest absolute weight sum of a neuron *)
Definition wsum (l : kdense) : Q := fold_right Qmax 0%Q (map (fun j => abssum (column j (kd_kernel l))) (seq 0 (kd_units l))).
(** error after a fully connected operator, for input x known up to e: [si], [sk], [so] are the exported scales *)
Definition fc_bound (sym : bool) (l : kdense) (si sk so : Q) (x : list Q) (e : Q) : Q :=
  let ek := if sym then (sk * (1#2))%Q else sk in
  (e * wsum l + ek * abssum x + inject_Z (Z.of_nat (length x)) * (e * ek) + si * sk * (1#2) + so * (1#2) + si * sk)%Q.
Definition sym_of (c : qcfg) (l : kdense) : bool := match layer_cfg c (kd_name l) with CDense d => d_sym d | _ => false end.
(** scale of input / output node number k of an operator *)
Definition in_scale (op : jop pbody) (k : nat) : Q := nth k (map pn_scale (pb_in (jo_body op))) 0%Q.
Definition out_scale (op : jop pbody) : Q := hd 0%Q (map pn_scale (pb_out (jo_body op))).
(** the error bound of the network, walking over its layers and the exported operators;
    [L l] and [D l]: |f a - f b| <= L |a - b| + D for the activation of l *)
Fixpoint err_bound (c : qcfg) (L D : kdense -> Q) (ls : list kdense) (g : list (jop pbody)) (x : list Q) (e : Q) : Q :=
  match ls, g with
  | l :: ls', op :: g' =>
      let e1 := fc_bound (sym_of c l) l (in_scale op 0) (in_scale op 1) (out_scale op) x e in
      if is_table l then
        match g' with
        | a :: g'' => err_bound c L D ls' g'' (float_layer l x) (L l * e1 + D l + out_scale a * (1#2))%Q
        | [] => e1
        end
      else err_bound c L D ls' g' (float_layer l x) e1
  | _, _ => e
  end.
Definition lipschitz (L D : kdense -> Q) (l : kdense) : Prop :=
  (0 <= L l)%Q /\ (0 <= D l)%Q /\ forall a b, (Qabs (kd_fn l a - kd_fn l b) <= L l * Qabs (a - b) + D l)%Q.

