(** Model of quantizer/itcl_quantizer/tensor_extractor/tensor.py (NodeLUT, NodeTensorBase,
    NodeTensorTensor) and of the bias hook that keras_dense.py:328-334 registers.
    Python objects are entries of a store [world] indexed by object number, so that aliasing (a node
    shared by two operators, hooks that close over nodes) is explicit.  Simplifications: node names and
    the four serialisation flags are left out; nobody registers an [on_requantize] callback, so that
    list is left out; [reduced_depth] is unused by the code (the reduced table is commented out). *)
From Verif Require Import Base DtypeModel QuantModel.
Open Scope Z_scope.
Open Scope list_scope.

(** ** NodeLUT *)
Record lut := mklut {
  l_q : gdtype; l_fn : Q -> Q;
  l_in_s : Q; l_in_zp : Z; l_out_s : Q; l_out_zp : Z;
  l_policy : nd Q; l_table : list Z }.

(** tensor.py:64-75 _create *)
Definition lut_create (l : lut) : lut :=
  mklut (l_q l) (l_fn l) (l_in_s l) (l_in_zp l) (l_out_s l) (l_out_zp l) (l_policy l)
    (create_LUT (l_q l) (l_fn l) (l_in_s l) (l_in_zp l) (l_out_s l) (l_out_zp l) (Some (l_policy l))).
(** tensor.py:30-62 __init__ *)
Definition lut_new (q : gdtype) (fn : Q -> Q) (in_s : Q) (in_zp : Z) (out_s : Q) (out_zp : Z) : lut :=
  lut_create (mklut q fn in_s in_zp out_s out_zp
    (get_base_rounding (nd_of_list 0%Q (float_activation q fn in_s in_zp)) out_s) []).
(** tensor.py:81-90 _update_in_qparams *)
Definition lut_update_in (l : lut) (s : Q) (z : Z) : lut :=
  lut_create (mklut (l_q l) (l_fn l) s z (l_out_s l) (l_out_zp l) (l_policy l) (l_table l)).
(** tensor.py:92-100 _update_out_qparams *)
Definition lut_update_out (l : lut) (s : Q) (z : Z) : lut :=
  mklut (l_q l) (l_fn l) (l_in_s l) (l_in_zp l) s z (l_policy l) (l_table l).
(** tensor.py:155-157 rounding_policy setter *)
Definition lut_set_policy (l : lut) (p : nd Q) : lut :=
  mklut (l_q l) (l_fn l) (l_in_s l) (l_in_zp l) (l_out_s l) (l_out_zp l) p (l_table l).
(** tensor.py:74, 102-115 offset *)
Definition lut_offset (l : lut) : Z := - gmin (l_q l).
(** tensor.py:117-130 __call__ *)
Definition lut_call (l : lut) (v : Z) : res Z := py_index (l_table l) (v + lut_offset l).
(** tensor.py:159-171 as_json: table, reduced table (always None), offset *)
Definition lut_json (l : lut) : list Z * Z := (l_table l, lut_offset l).

(** ** Tensor nodes *)
Record tens := mktens { t_fp : nd Q; t_policy : nd Q; t_og_policy : nd Q; t_codes : nd Z }.

(** keras_dense.py:328-330: update_bias_scale_fn closes over three nodes *)
Record hook := mkhook { h_bias : nat; h_kernel : nat; h_input : nat }.

Record node := mknode {
  n_scale : Q; n_zp : Z; n_og_scale : Q; n_og_zp : Z;
  n_q : gdtype;
  n_tens : option tens;          (* None: a plain NodeTensorBase *)
  n_lut : option lut;
  n_hooks : list hook }.         (* on_quant_param_update *)

(** tensor.py:194-208 NodeTensorBase.__init__ *)
Definition node_new (s : Q) (z : Z) (q : gdtype) : node := mknode s z s z q None None [].
(** tensor.py:379-395 NodeTensorTensor.__init__ (with_tensor, 273-282) *)
Definition with_tensor (n : node) (fp : nd Q) : node :=
  let p := get_base_rounding fp (n_scale n) in
  mknode (n_scale n) (n_zp n) (n_og_scale n) (n_og_zp n) (n_q n)
    (Some (mktens fp p p (quantize (n_q n) fp (n_zp n) (n_scale n) None))) (n_lut n) (n_hooks n).
(** tensor.py:284-311 with_lut *)
Definition with_lut (n : node) (fn : Q -> Q) (out_s : Q) (out_zp : Z) : node :=
  mknode (n_scale n) (n_zp n) (n_og_scale n) (n_og_zp n) (n_q n) (n_tens n)
    (Some (lut_new (n_q n) fn (n_scale n) (n_zp n) out_s out_zp)) (n_hooks n).

Definition set_params (n : node) (s : Q) (z : Z) : node :=
  mknode s z (n_og_scale n) (n_og_zp n) (n_q n) (n_tens n) (n_lut n) (n_hooks n).
Definition set_tens (n : node) (t : option tens) : node :=
  mknode (n_scale n) (n_zp n) (n_og_scale n) (n_og_zp n) (n_q n) t (n_lut n) (n_hooks n).
Definition set_lut (n : node) (l : option lut) : node :=
  mknode (n_scale n) (n_zp n) (n_og_scale n) (n_og_zp n) (n_q n) (n_tens n) l (n_hooks n).
Definition set_hooks (n : node) (h : list hook) : node :=
  mknode (n_scale n) (n_zp n) (n_og_scale n) (n_og_zp n) (n_q n) (n_tens n) (n_lut n) h.

(** tensor.py:215-217, 251-253 reset_scale, reset_zp *)
Definition reset_scale (n : node) : node := set_params n (n_og_scale n) (n_zp n).
Definition reset_zp (n : node) : node := set_params n (n_scale n) (n_og_zp n).

(** tensor.py:484-492 and 349-353 _requantize *)
Definition requantize (n : node) : node :=
  let n1 := set_tens n (option_map (fun t =>
    mktens (t_fp t) (t_policy t) (t_og_policy t)
      (quantize (n_q n) (t_fp t) (n_zp n) (n_scale n) (Some (t_policy t)))) (n_tens n)) in
  set_lut n1 (option_map (fun l => lut_update_in l (n_scale n) (n_zp n)) (n_lut n1)).

(** tensor.py:444-463 rounding_policy setter; a plain node has no such setter (Python would just
    create an attribute: outside the model, reported as TypeError) *)
Definition shape_eqb (a b : list nat) : bool := if list_eq_dec Nat.eq_dec a b then true else false.
Definition set_policy (n : node) (p : nd Q) : res node :=
  match n_tens n with
  | None => Err ETypeError
  | Some t =>
      if shape_eqb (nd_shape p) (nd_shape (t_fp t))
      then Ok (set_tens n (Some (mktens (t_fp t) p (t_og_policy t)
             (quantize (n_q n) (t_fp t) (n_zp n) (n_scale n) (Some p)))))
      else Err EValueError
  end.
(** tensor.py:422-424 reset_rounding *)
Definition reset_rounding (n : node) : res node :=
  match n_tens n with None => Err EAttributeError | Some t => set_policy n (t_og_policy t) end.
(** tensor.py:474-482 dequantized *)
Definition dequantized (n : node) : option (nd Q) :=
  option_map (fun t => nd_map (fun c => inject_Z c * n_scale n + inject_Z (n_zp n))%Q (t_codes t)) (n_tens n).

(** ** The store and the operations that cross nodes *)
Definition world := nat -> node.
Definition upd (w : world) (i : nat) (n : node) : world := fun j => if (j =? i)%nat then n else w j.

(** tensor.py:255-271 update_quant_parameters and 355-362 _run_hook; the hook is
    keras_dense.py:328-330.  [fuel] bounds the depth of hooks triggering hooks (RecursionError, a RuntimeError, at Python's
    limit); the theorems show the depth is at most 2 for networks built by the quantizer. *)
Fixpoint update (fuel : nat) (w : world) (i : nat) (s : Q) (z : Z) (rq : bool) : res world :=
  match fuel with
  | O => Err ERuntimeError
  | S fuel' =>
      let n := set_params (w i) s z in
      let n := if rq then requantize n else n in
      fold_left (fun acc h => do w <- acc;
          update fuel' w (h_bias h) (n_scale (w (h_kernel h)) * n_scale (w (h_input h)))%Q (n_zp (w (h_bias h))) true)
        (n_hooks n) (Ok (upd w i n))
  end.

(** keras_dense.py:332-334: subscribe the hook to the kernel and the input node *)
Definition subscribe (w : world) (h : hook) : world :=
  let w1 := upd w (h_kernel h) (set_hooks (w (h_kernel h)) (n_hooks (w (h_kernel h)) ++ [h])) in
  upd w1 (h_input h) (set_hooks (w1 (h_input h)) (n_hooks (w1 (h_input h)) ++ [h])).

(** ** Building the nodes of a stack of dense layers
    keras_dense.py:311-379 KerasDense.quantize, wiring only: nodes are allocated in the order kernel, bias,
    bias-add, activation output; the parameters are whatever calibration chose.  The bias scale is
    input scale * kernel scale with zero point 0 (204-221). *)
Record dense_spec := mkspec {
  s_kernel : node;                 (* kernel node, already holding its tensor *)
  s_bias_q : gdtype; s_bias : nd Q;
  s_bias_add : node;
  s_act : option ((Q -> Q) * node) (* activation function with its output node; None for skipped activations *)
}.
Record net := mknet { w_nodes : world; w_next : nat; w_in : nat; w_layers : list hook }.

Definition add_dense (st : net) (sp : dense_spec) : net :=
  let w := w_nodes st in
  let k := w_next st in let b := S k in let a := S b in let o := S a in
  let kn := set_hooks (s_kernel sp) [] in
  let bn := with_tensor (node_new (n_scale (w (w_in st)) * n_scale kn)%Q 0 (s_bias_q sp)) (s_bias sp) in
  let an := set_hooks (s_bias_add sp) [] in
  let an := match s_act sp with
            | Some (fn, on) => with_lut an fn (n_scale on) (n_zp on)
            | None => an end in
  let h := mkhook b k (w_in st) in
  let w := upd (upd (upd w k kn) b bn) a an in
  let w := match s_act sp with Some (_, on) => upd w o (set_hooks on []) | None => w end in
  mknet (subscribe w h) (S o) (match s_act sp with Some _ => o | None => a end) (w_layers st ++ [h]).

(** keras_input.py:18-37: the input node is object 0 *)
Definition start_net (input : node) : net := mknet (fun _ => set_hooks input []) 1 0 [].
Definition build_net (input : node) (specs : list dense_spec) : net := fold_left add_dense specs (start_net input).
