(** Specification vocabulary for property C79 (PropCert.v): files of dense networks, whoever produced or tuned them, and an error
    bound against a float network that is computed from the file. *)
From Verif Require Import Base DtypeModel QuantModel LutModel FcModel EngineModel DistModel BuildModel PipeModel PropCore PropFc PropRelu PropDist PipeSpec RPipeSpec.
From Coq Require Import Lqa Qminmax.
Open Scope Z_scope.
Open Scope list_scope.

(** the real number a code of a node stands for *)
Definition real_of (n : pnode) (c : Z) : Q := (pn_scale n * inject_Z (c - pn_zp n))%Q.
Definition maxQ (l : list Q) : Q := fold_right Qmax 0%Q l.
(** largest difference between a weight of the file and the float weight (rows of the file's kernel are neurons) *)
Definition kernel_err (l : kdense) (k : pnode) (m : list (list Z)) : Q :=
  maxQ (map (fun j => maxQ (map (fun i => Qabs (real_of k (nth i (nth j m []) 0%Z) - nth i (column j (kd_kernel l)) 0%Q))
                                (seq 0 (length (kd_kernel l))))) (seq 0 (kd_units l))).
(** largest difference between a bias of the file (in accumulator units) and the float bias *)
Definition bias_err (l : kdense) (i k : pnode) (bv : list Z) : Q :=
  maxQ (map (fun j => Qabs (pn_scale i * pn_scale k * inject_Z (nth j bv 0%Z) - bias_at l j)) (seq 0 (kd_units l))).
(** what a table returns for a code, and the largest difference from the activation over all the codes of the node it reads *)
Definition table_at (n : pnode) (c : Z) : res Z :=
  match lut_from_node (pn_lut n) with Ok a => lookup (la_table a) (c + la_offset a) | Err e => Err e end.
Definition codes_of (q : gdtype) : list Z := map (fun i => gmin q + Z.of_nat i) (seq 0 (Z.to_nat (gmax q - gmin q + 1))).
Definition table_err (f : Q -> Q) (n o : pnode) : Q :=
  match parse_dtype (pn_dtype n) with
  | Ok q => maxQ (map (fun c => match table_at n c with Ok d => Qabs (real_of o d - f (real_of n c)) | Err _ => 0%Q end) (codes_of q))
  | Err _ => 0%Q
  end.

(** a node with a readable dtype (at most 32 bits, at least two codes), a positive scale and a zero point of its dtype *)
Definition usable (n : pnode) : Prop :=
  exists q, parse_dtype (pn_dtype n) = Ok q /\ narrow q /\ (0 < pn_scale n)%Q /\ in_dtype q (pn_zp n).

(** a FULLY_CONNECTED operator for layer [l]: matching shapes, kernel codes of the kernel's dtype, multiplier in range, the worst
    case accumulator fits in 32 bits *)
Record fc_fits (l : kdense) (i k b n : pnode) (m : list (list Z)) (bv : list Z) : Prop := {
  ff_kernel : pn_tensor k = PMat m; ff_bias : pn_tensor b = PVec bv;
  ff_rows : length m = kd_units l; ff_cols : forall r, In r m -> length r = length (kd_kernel l); ff_len : length bv = kd_units l;
  ff_scale : (0 < pn_scale k)%Q; ff_out : usable n;
  ff_mult : (1 # 1000000 <= pn_scale i * pn_scale k / pn_scale n < inject_Z (2 ^ 29))%Q;
  ff_acc : exists di K, parse_dtype (pn_dtype i) = Ok di /\ (forall r c, In r m -> In c r -> Z.abs (c - pn_zp k) <= K) /\
     forall v, In v bv -> Z.of_nat (length (kd_kernel l)) * ((gmax di - gmin di) * K) + Z.abs v <= 2 ^ 31 }.
(** the table of node [n] is defined on all its codes and gives codes of [o] *)
Definition table_ok (n o : pnode) : Prop :=
  exists q qo, parse_dtype (pn_dtype n) = Ok q /\ parse_dtype (pn_dtype o) = Ok qo /\
    forall c, in_dtype q c -> exists d, table_at n c = Ok d /\ in_dtype qo d.
Definition table_op (t : chars) : Prop := t = str "TANHLUT" \/ t = str "SIGMOIDLUT".

(** the operators [ops] implement the layers [ls], reading node [inp], the last output is node [out] *)
Inductive implements : list kdense -> pnode -> list (jop pbody) -> pnode -> Prop :=
| im_nil inp : implements [] inp [] inp
| im_fc l ls inp k b n m bv name ops out :
    is_table l = false -> fc_fits l inp k b n m bv -> implements ls n ops out ->
    implements (l :: ls) inp (mkjop (str "FULLY_CONNECTED") name (mkpb [inp; k; b] [n]) :: ops) out
| im_table l ls inp k b n m bv name t name' o ops out :
    is_table l = true -> fc_fits l inp k b n m bv -> table_op t -> usable o -> table_ok n o -> implements ls o ops out ->
    implements (l :: ls) inp
      (mkjop (str "FULLY_CONNECTED") name (mkpb [inp; k; b] [n]) :: mkjop t name' (mkpb [n] [o]) :: ops) out.

(** error after a fully connected operator *)
Definition fc_cert (l : kdense) (op : jop pbody) (x : list Q) (e : Q) : Q :=
  match pb_in (jo_body op), pb_out (jo_body op) with
  | [i; k; b], [n] =>
      match pn_tensor k, pn_tensor b with
      | PMat m, PVec bv =>
          let ek := kernel_err l k m in
          (e * wsum l + ek * abssum x + inject_Z (Z.of_nat (length x)) * (e * ek) + bias_err l i k bv
             + pn_scale n * (1#2) + pn_scale i * pn_scale k)%Q
      | _, _ => e
      end
  | _, _ => e
  end.
(** error after the layers; [e]: error of x; ReLU layers and values outside the range of a node as in RPipeSpec *)
Fixpoint cert (L D : kdense -> Q) (ls : list kdense) (g : list (jop pbody)) (x : list Q) (e : Q) : Q :=
  match ls, g with
  | l :: ls', op :: g' =>
      let n := out_node op in
      let e1 := fc_cert l op x e in
      if is_table l then
        match g' with
        | a :: g'' => cert L D ls' g'' (layer_out l x)
            (L l * Qmax e1 (excess n (affine l x)) + D l + table_err (kd_fn l) n (out_node a))
        | [] => e1
        end
      else cert L D ls' g' (layer_out l x) (Qmax e1 (Qmax (leak l n) (excess n (layer_out l x))))
  | _, _ => e
  end.
(** a file of a dense network with n inputs *)
Record dense_file (ls : list kdense) (n : nat) (j : jnet pbody) (qop : jop pbody) (ops : list (jop pbody)) (out : pnode) : Prop := {
  df_pos : (0 < n)%nat; df_shape : shaped n ls;
  df_engine : jt_engine j = str "tflite";
  df_graph : jt_graph j = qop :: ops ++ [mkjop (str "DEQUANTIZE") (str "DEQUANTIZE") (mkpb [out] [])];
  df_in : jt_input j = [Some (mkjnode None None)]; df_out : jt_output j = [Some (mkjnode None None)];
  df_first : exists nd, usable nd /\ qop = mkjop (str "QUANTIZE") (str "QUANTIZE") (mkpb [] [nd]) /\ implements ls nd ops out }.

(** ** Files retuned by a rounding policy *)
(** two codes of the same number under two rounding policies differ by at most one *)
Definition near_code (c c' : Z) : Prop := Z.abs (c' - c) <= 1.
Definition with_tensor (n : pnode) (t : ptensor) : pnode := mkpn (pn_scale n) (pn_zp n) (pn_dtype n) (pn_shape n) t (pn_lut n).
(** [op'] is [op] with every kernel and bias code moved by at most one *)
Definition nudged_op (op op' : jop pbody) : Prop :=
  op' = op \/
  exists name i k b n m m' bv bv',
    op = mkjop (str "FULLY_CONNECTED") name (mkpb [i; k; b] [n]) /\ pn_tensor k = PMat m /\ pn_tensor b = PVec bv /\
    op' = mkjop (str "FULLY_CONNECTED") name (mkpb [i; with_tensor k (PMat m'); with_tensor b (PVec bv')] [n]) /\
    Forall2 (Forall2 near_code) m m' /\ Forall2 near_code bv bv'.
(** the worst case accumulator of an operator fits in 32 bits *)
Definition acc_fits (op : jop pbody) : Prop :=
  forall i k b n m bv di, jo_body op = mkpb [i; k; b] [n] -> pn_tensor k = PMat m -> pn_tensor b = PVec bv ->
    parse_dtype (pn_dtype i) = Ok di ->
    exists K, (forall r c, In r m -> In c r -> Z.abs (c - pn_zp k) <= K) /\
      forall v, In v bv -> Z.of_nat (width m) * ((gmax di - gmin di) * K) + Z.abs v <= 2 ^ 31.
Definition with_graph (j : jnet pbody) (g : list (jop pbody)) : jnet pbody := mkjnet (jt_engine j) g (jt_input j) (jt_output j).
