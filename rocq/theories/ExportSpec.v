(** Specification vocabulary for property C80 (PropExport.v): node stores of quantized dense networks, tuning histories, and an error
    bound for the tuned file that only mentions its scales. *)
From Verif Require Import Base DtypeModel QuantModel LutModel FcModel EngineModel DistModel BuildModel PipeModel PropCore PropFc PropRelu
  PropDist PipeSpec RPipeSpec NodeModel PropNode CertSpec ExportModel EqModel ParamAnnealModel.
From Coq Require Import Lqa Qminmax.
Open Scope Z_scope.
Open Scope list_scope.

(** dtypes: at most 32 bits, written by some string; data nodes need at least two codes *)
Definition known (q : gdtype) : Prop := within_int32 q /\ exists s, parse_dtype s = Ok q.
Definition readable (q : gdtype) : Prop := narrow q /\ exists s, parse_dtype s = Ok q.
(** a node as its constructor leaves it, holding a float tensor *)
Definition created (n : node) (q : gdtype) (fp : nd Q) : Prop := exists s z, n = NodeModel.with_tensor (node_new s z q) fp.

(** the float tensors of a layer: rows of the kernel tensor are neurons (Keras' kernel transposed) *)
Definition kernel_is (l : kdense) (n : nat) (t : nd Q) : Prop :=
  nd_shape t = [kd_units l; n] /\
  forall j i, (j < kd_units l)%nat -> (i < n)%nat -> (nd_get t [j; i] == nth i (column j (kd_kernel l)) 0)%Q.
Definition bias_is (l : kdense) (t : nd Q) : Prop :=
  nd_shape t = [kd_units l] /\ forall j, (j < kd_units l)%nat -> (nd_get t [j] == bias_at l j)%Q.
(** the nodes the quantizer creates for layer [l] with [n] inputs, whatever scales and zero points calibration chose *)
Record describes (n : nat) (l : kdense) (sp : dense_spec) : Prop := {
  de_kernel : exists q fp, created (s_kernel sp) q fp /\ known q /\ kernel_is l n fp;
  de_bias : known (s_bias_q sp) /\ bias_is l (s_bias sp);
  de_add : exists q fp, created (s_bias_add sp) q fp /\ readable q;
  de_act : match s_act sp with
           | Some (f, o) => is_table l = true /\ f = kd_fn l /\ exists fp, created o (n_q (s_bias_add sp)) fp
           | None => is_table l = false
           end }.
Fixpoint describe (n : nat) (ls : list kdense) (sps : list dense_spec) : Prop :=
  match ls, sps with
  | [], [] => True
  | l :: ls', sp :: sps' => describes n l sp /\ describe (kd_units l) ls' sps'
  | _, _ => False
  end.

(** ** Tuning *)
Definition code_count (q : gdtype) : nat := Z.to_nat (gmax q + 1 - gmin q).
(** any operation on the nodes of store [w] except attaching another table; policies given to a table have its length *)
Definition tuning (w : world) (o : op) : Prop :=
  match o with
  | OWithLut _ _ _ _ => False
  | OLutPolicy i p => nd_shape p = [code_count (n_q (w i))]
  | _ => True
  end.
(** rounding policies between floor and ceiling *)
Definition unit_policy (o : op) : Prop :=
  match o with
  | OPolicy _ p | OLutPolicy _ p => forall i, valid_idx (nd_shape p) i = true -> (0 <= nd_get p i <= 1)%Q
  | _ => True
  end.
(** numeric conditions on an operator of the tuned file, checkable on the file *)
Definition tuned_ok (op : jop pbody) : Prop :=
  acc_fits op /\ (forall n, In n (pb_out (jo_body op)) -> node_sane n) /\
  forall i k b n, jo_body op = mkpb [i; k; b] [n] ->
    (0 < pn_scale k)%Q /\ (1 # 1000000 <= pn_scale i * pn_scale k / pn_scale n < inject_Z (2 ^ 29))%Q.

(** ** The bound *)
(** a number between the smallest and the largest real a node can stand for *)
Definition reaches (n : pnode) (x : Q) : Prop := (bottom n <= x <= top n)%Q.
(** the weights and biases of the layers can be represented by their nodes, and so can the table entries by the activation nodes *)
Fixpoint in_range (ls : list kdense) (g : list (jop pbody)) : Prop :=
  match ls, g with
  | l :: ls', op :: g' =>
      (forall i k b n, jo_body op = mkpb [i; k; b] [n] ->
         (forall j c, (j < kd_units l)%nat -> (c < length (kd_kernel l))%nat -> reaches k (nth c (column j (kd_kernel l)) 0%Q)) /\
         (forall j, (j < kd_units l)%nat -> reaches b (bias_at l j))) /\
      (if is_table l then
         match g' with
         | a :: g'' => (forall q c, parse_dtype (pn_dtype (out_node op)) = Ok q -> in_dtype q c ->
                          reaches (out_node a) (kd_fn l (real_of (out_node op) c))) /\ in_range ls' g''
         | [] => True
         end
       else in_range ls' g')
  | _, _ => True
  end.
(** [cert] of CertSpec with the weight, bias and table differences replaced by one step of the respective scale *)
Fixpoint step_cert (L D : kdense -> Q) (ls : list kdense) (g : list (jop pbody)) (x : list Q) (e : Q) : Q :=
  match ls, g with
  | l :: ls', op :: g' =>
      let n := out_node op in
      let si := in_scale op 0 in let sk := in_scale op 1 in
      let e1 := (e * wsum l + sk * abssum x + inject_Z (Z.of_nat (length x)) * (e * sk) + si * sk + pn_scale n * (1#2) + si * sk)%Q in
      if is_table l then
        match g' with
        | a :: g'' => step_cert L D ls' g'' (layer_out l x)
            (L l * Qmax e1 (excess n (affine l x)) + D l + pn_scale (out_node a))
        | [] => e1
        end
      else step_cert L D ls' g' (layer_out l x) (Qmax e1 (Qmax (leak l n) (excess n (layer_out l x))))
  | _, _ => e
  end.
(** the activation output nodes (the fourth node of every layer) kept the parameters they were created with *)
Definition acts_kept (w w' : world) (k : nat) : Prop :=
  forall u, (u < k)%nat -> n_scale (w' (4 * u + 4)%nat) = n_scale (w (4 * u + 4)%nat) /\ n_zp (w' (4 * u + 4)%nat) = n_zp (w (4 * u + 4)%nat).

(** ** Tuning sessions
    A network of [next] nodes is tuned by any mixture of direct operations on its nodes (AdaRound assigns rounding policies),
    complete runs of the BFS equalizer on any group of nodes, and runs of the parameter annealer, in any order, with any random
    draws, loss functions and limits.  The optimizers' private copies of nodes live at [next] and beyond. *)
Inductive session (w0 : world) (next : nat) : world -> Prop :=
| ss_start : session w0 next w0
| ss_op : forall w fuel o, session w0 next w -> tuning w o -> session w0 next (exec fuel w o)
| ss_bfs : forall w fuel cost ts max turns ds w' best seen, session w0 next w ->
    bfs_optimize fuel cost w next ts max turns ds = Ok (Some (w', best, seen)) -> session w0 next w'
| ss_anneal : forall w fuel cost steps ts ds acc w' b e, session w0 next w ->
    pan_optimize fuel cost steps w next ts ds acc = Ok (w', b, e) -> session w0 next w'.
