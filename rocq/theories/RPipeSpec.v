(** Specification vocabulary for property C65 (PropRPipe.v): float networks with ReLU layers, and an error bound that needs no
    condition on the inputs because saturation is part of it. *)
From Verif Require Import Base DtypeModel QuantModel EngineModel DistModel BuildModel PipeModel PropCore PropFc PropRelu PropDist PipeSpec.
From Coq Require Import Lqa Qminmax.
Open Scope Z_scope.
Open Scope list_scope.

Definition is_relu (l : kdense) : bool := chars_eqb (upper (kd_act l)) (str "RELU").
Definition is_relu6 (l : kdense) : bool := chars_eqb (upper (kd_act l)) (str "RELU6").
Definition relu_act (l : kdense) : Prop := upper (kd_act l) = str "RELU" \/ upper (kd_act l) = str "RELU6".
(** the layer's activation as a function: max(x,0), min(max(x,0),6), the tabulated function, or none (linear, softmax logits) *)
Definition act_fn (l : kdense) (v : Q) : Q :=
  if is_table l then kd_fn l v else if is_relu l then relu v else if is_relu6 l then relu6 v else v.
Definition layer_out (l : kdense) (x : list Q) : list Q := map (act_fn l) (affine l x).
Definition net_out (ls : list kdense) (x : list Q) : list Q := fold_left (fun v l => layer_out l v) ls x.

(** the smallest and the largest real a node of the exported file can stand for *)
Definition bottom (n : pnode) : Q :=
  match parse_dtype (pn_dtype n) with Ok q => (pn_scale n * inject_Z (gmin q - pn_zp n))%Q | Err _ => 0%Q end.
Definition top (n : pnode) : Q :=
  match parse_dtype (pn_dtype n) with Ok q => (pn_scale n * inject_Z (gmax q - pn_zp n))%Q | Err _ => 0%Q end.
(** how far some of the values lie outside that range (0 if none does) *)
Definition excess (n : pnode) (vs : list Q) : Q :=
  fold_right Qmax 0%Q (map (fun v => Qmax (v - top n) (bottom n - v)) vs).
(** a fused ReLU is only the saturation of the output node at its own limits: how far they are from 0 (and 6) *)
Definition leak (l : kdense) (n : pnode) : Q :=
  if is_table l then 0%Q else if is_relu l then (- bottom n)%Q else if is_relu6 l then Qmax (- bottom n) (top n - 6) else 0%Q.

Definition no_node : pnode := mkpn 0 0 [] [] PNone None.
Definition out_node (op : jop pbody) : pnode := hd no_node (pb_out (jo_body op)).
(** error after the layers, walking over the exported operators; [e]: error of x *)
Fixpoint rerr (c : qcfg) (L D : kdense -> Q) (ls : list kdense) (g : list (jop pbody)) (x : list Q) (e : Q) : Q :=
  match ls, g with
  | l :: ls', op :: g' =>
      let n := out_node op in
      let e1 := fc_bound (sym_of c l) l (in_scale op 0) (in_scale op 1) (out_scale op) x e in
      if is_table l then
        match g' with
        | a :: g'' => let e2 := Qmax e1 (excess n (affine l x)) in
            rerr c L D ls' g'' (layer_out l x) (Qmax (L l * e2 + D l + out_scale a * (1#2)) (excess (out_node a) (layer_out l x)))
        | [] => e1
        end
      else rerr c L D ls' g' (layer_out l x) (Qmax e1 (Qmax (leak l n) (excess n (layer_out l x))))
  | _, _ => e
  end.
(** error of the quantized input *)
Definition input_err (op : jop pbody) (x : list Q) : Q := Qmax (out_scale op * (1#2)) (excess (out_node op) x).

(** an output node of the exported file: positive scale, zero point a code of its dtype *)
Definition node_sane (n : pnode) : Prop :=
  (0 < pn_scale n)%Q /\ forall q, parse_dtype (pn_dtype n) = Ok q -> gmin q <= pn_zp n <= gmax q.
Definition op_ok (op : jop pbody) : Prop := fc_op_ok op /\ forall n, In n (pb_out (jo_body op)) -> node_sane n.
Definition good_rlayer (c : qcfg) (l : kdense) : Prop :=
  (plain_act l \/ table_act l \/ relu_act l) /\ exists d qk q qb, layer_cfg c (kd_name l) = CDense d /\ good_cfg d qk q qb.
(** what calibration needs from a ReLU layer: the pre-activations of the calibration rows have both signs and the largest one is at
    least one histogram bin (1/512 of their range; for ReLU6, the bin must not exceed 6) *)
Fixpoint relu_calibrated (ls : list kdense) (rows : list (list Q)) : Prop :=
  match ls with
  | [] => True
  | l :: r =>
      (relu_act l -> exists x y, let A := concat (map (affine l) rows) in
         In x A /\ In y A /\ (forall v, In v A -> x <= v <= y)%Q /\ (x <= 0)%Q /\ (0 < y)%Q /\
         (y - x <= 512 * (if is_relu6 l then 6 else y))%Q) /\
      relu_calibrated r (map (float_layer l) rows)
  end.
