(** Model of model_converters/onnx2json (helpers/graph.py, helpers/buildOperator.py, helpers/nodeBuilders/*.py, 2json.py) and of
    how the inference engine's ONNX operators read its output (layers/onnx/*.py from_model, layers/common/lut.py). *)
From Verif Require Import Base DtypeModel QuantModel LutModel FcModel EngineModel OnnxModel.
Open Scope Z_scope.
Open Scope list_scope.
Notation str := chars_of (only parsing).

(** ** The ONNX protobuf, as far as the converter reads it *)
Record init := mkinit { i_name : chars; i_raw : list Z (* bytes *); i_dims : list nat; i_float : list Q; i_int : list Z }.
Record vinfo := mkvinfo { v_name : chars; v_dims : list Z }.
Record onode := mkonode { n_type : chars; n_in : list chars; n_out : list chars }.
Record omodel := mkom { m_nodes : list onode; m_init : list init; m_vinfo : list vinfo; m_inputs : list vinfo; m_outputs : list vinfo }.

(** ** The exported JSON *)
Record jn := mkjn { q_scale : option Q; q_zp : option Z; q_tensor : option (nd Z); q_lut : option lut_json; q_info : option (chars * Z) }.
Record jo := mkjo { jo_ins : list jn; jo_outs : list jn }.

(** ** nodeBuilders/buildBaseNode.py *)
(** a dict comprehension {name: i}: the last entry of that name wins (lines 32, 81) *)
Fixpoint last_idx {A} (key : A -> chars) (k : chars) (l : list A) (i : nat) : option nat :=
  match l with
  | [] => None
  | a :: r => match last_idx key k r (S i) with
              | Some j => Some j
              | None => if chars_eqb (key a) k then Some i else None
              end
  end.
Definition get_init (m : omodel) (k : chars) : res init :=
  match last_idx i_name k (m_init m) 0 with
  | None => Err EKeyError
  | Some i => match nth_error (m_init m) i with Some x => Ok x | None => Err EIndexError end
  end.
(** np.reshape of a flat array (row major); ValueError if the sizes differ (line 41) *)
Fixpoint prod (l : list nat) : nat := match l with [] => 1%nat | n :: r => (n * prod r)%nat end.
Fixpoint flat_idx (dims idx : list nat) : nat :=
  match dims, idx with
  | _ :: ds, i :: is => (i * prod ds + flat_idx ds is)%nat
  | _, _ => 0%nat
  end.
Definition reshape (l : list Z) (dims : list nat) : res (nd Z) :=
  if (length l =? prod dims)%nat then Ok (mknd dims (fun idx => nth (flat_idx dims idx) l 0)) else Err EValueError.
(** np.transpose: axes reversed (line 44) *)
Definition transpose {A} (a : nd A) : nd A := mknd (rev (nd_shape a)) (fun idx => nd_get a (rev idx)).
(** line 46: list(a.tolist()); the tolist() of a 0-d array is a number, and list() of it a TypeError *)
Definition as_list {A} (a : nd A) : res (nd A) := match nd_shape a with [] => Err ETypeError | _ => Ok a end.
(** lines 6-54 build_quantized_node; np.frombuffer with dtype uint8 gives the bytes *)
Definition build_quantized_node (m : omodel) (tensor : option chars) (scale zp : chars) (tr : bool) : res jn :=
  do s <- get_init m scale;
  do z <- get_init m zp;
  do t <- match tensor with
          | None => Ok None
          | Some k => do i <- get_init m k; do a <- reshape (i_raw i) (i_dims i);
                      do a <- as_list (if tr then transpose a else a); Ok (Some a)
          end;
  do sv <- py_index (i_float s) 0;
  do zv <- py_index (i_int z) 0;
  Ok (mkjn (Some sv) (Some zv) t None None).
(** lines 57-64 layer_info_to_tensor: "shape" is the second extent, an int *)
Definition layer_info_to_tensor (v : vinfo) : res (chars * Z) :=
  do d <- py_index (v_dims v) 1; Ok (v_name v, d).
(** lines 67-101 build_base_node; [if idx:] is false for index 0 *)
Definition build_base_node (m : omodel) (k : chars) : res jn :=
  do v <- match last_idx v_name k (m_vinfo m) 0 with
          | Some (S i) => match nth_error (m_vinfo m) (S i) with Some v => Ok v | None => Err EIndexError end
          | _ => do i0 <- py_index (m_inputs m) 0;
                 if chars_eqb k (v_name i0) then Ok i0
                 else do o0 <- py_index (m_outputs m) 0;
                      if chars_eqb k (v_name o0) then Ok o0 else Err EValueError
          end;
  do t <- layer_info_to_tensor v;
  Ok (mkjn None None None None (Some t)).

(** ** The node builders *)
(** util/quantization.py:5-13: the uint8 Quantization object; settings.yaml gives depth and minimum for sigmoid tables,
    Tanh.py:33 the defaults 3 and 10 *)
Record settings := mkset { s_depth : Z; s_min : Z }.
(** float functions: math.tanh, sigmoid, np.exp *)
Record fns := mkfns { f_tanh : Q -> Q; f_sig : Q -> Q; f_exp : Q -> Q }.
(** QuantizeLinear.py:6-10, DequantizeLinear.py:11-15: exactly three inputs, at least one output *)
Definition build_qdq (m : omodel) (n : onode) : res jo :=
  match n_in n with
  | [_; s; z] => do _ <- py_index (n_out n) 0; do q <- build_quantized_node m None s z false; Ok (mkjo [q] [])
  | _ => Err EValueError
  end.
(** QLinearMatMul.py:10-42 ([tr] = true) and QLinearAdd.py:10-38 ([tr] = false) *)
Definition build_binary (tr : bool) (m : omodel) (n : onode) : res jo :=
  match n_in n with
  | [_; is; iz; a; as_; az; bs; bz] =>
      do _ <- py_index (n_out n) 0;
      do q1 <- build_quantized_node m None is iz false;
      do q2 <- build_quantized_node m (Some a) as_ az tr;
      do q3 <- build_quantized_node m None bs bz false;
      Ok (mkjo [q1; q2; q3] [])
  | _ => Err EValueError
  end.
(** Softmax.py:8-16 and Tanh.py:14-29 *)
Definition build_base (m : omodel) (n : onode) : res jo :=
  do i <- py_index (n_in n) 0; do o <- py_index (n_out n) 0;
  do a <- build_base_node m i; do b <- build_base_node m o; Ok (mkjo [a] [b]).
Definition lut_node (s : option Q) (z : option Z) (depth mr : Z) (lut : list Z) : jn :=
  mkjn s z None (Some (mklutj (Some lut) (Some (serialize (mk_rlut lut depth mr false))) (Some 0))) None.
(** QLinearSigmoid.py:34-69 *)
Definition build_sigmoid (f : fns) (st : settings) (m : omodel) (n : onode) : res jo :=
  match n_in n with
  | [_; is; iz; os; oz] =>
      do _ <- py_index (n_out n) 0;
      do q1 <- build_quantized_node m None is iz false;
      do q2 <- build_quantized_node m None os oz false;
      match q_scale q1, q_zp q1, q_scale q2, q_zp q2 with
      | Some a, Some b, Some c, Some d => Ok (mkjo [lut_node (Some a) (Some b) (s_depth st) (s_min st) (create_LUT u8 (f_sig f) a b c d None)] [])
      | _, _, _, _ => Err EValueError
      end
  | _ => Err EValueError
  end.
(** Tanh.py:37-79: nodes 0 and 2 of the fused triple; zero or missing parameters are replaced ([or]) *)
Definition build_tanh_lut (f : fns) (m : omodel) (ns : list onode) : res jo :=
  do n0 <- py_index ns 0; do i <- build_qdq m n0;
  do n2 <- py_index ns 2; do o <- build_qdq m n2;
  do a <- py_index (jo_ins i) 0; do b <- py_index (jo_ins o) 0;
  let lut := create_LUT u8 (f_tanh f) (or_Q (q_scale a) 1) (or_Z (q_zp a) 0) (or_Q (q_scale b) 1) (or_Z (q_zp b) 0) None in
  Ok (mkjo [lut_node None None 3 10 lut] []).

(** ** helpers/graph.py *)
(** line 61 ".".join *)
Fixpoint join (l : list chars) : chars :=
  match l with [] => [] | [a] => a | a :: r => a ++ str "." ++ join r end.
Definition tanh_pattern : chars := join [str "DequantizeLinear"; str "Tanh"; str "QuantizeLinear"].
(** lines 44-78 __get_next_ops on the remaining operators: candidate type, its operators, how many are consumed *)
Inductive candidate := Single (n : onode) | Fused (ns : list onode).
Definition get_next (rem : list onode) : res (candidate * nat) :=
  if prefix_of tanh_pattern (join (map n_type rem)) then Ok (Fused (firstn 3 rem), 3%nat)
  else match rem with [] => Err EIndexError | n :: _ => Ok (Single n, 1%nat) end.
(** lines 35-40: the loop over the index; None only if the fuel runs out *)
Fixpoint candidates (fuel : nat) (ops : list onode) (idx : nat) : option (res (list candidate)) :=
  match fuel with
  | O => None
  | S fuel =>
      if (idx <? length ops)%nat then
        match get_next (skipn idx ops) with
        | Err e => Some (Err e)
        | Ok (c, k) => match candidates fuel ops (idx + k) with
                       | Some (Ok r) => Some (Ok (c :: r))
                       | x => x
                       end
        end
      else Some (Ok [])
  end.
(** buildOperator.py:28-64: exported type and builder.  A candidate named "TanhLUT" that is a single ONNX node would be passed to
    TanhLUT().build, which indexes the node (TypeError). *)
Definition build_op (f : fns) (st : settings) (m : omodel) (c : candidate) : res (jop jo) :=
  let out (t : chars) (b : res jo) := do x <- b; Ok (mkjop t t x) in
  match c with
  | Fused ns => out (str "TanhLUT") (build_tanh_lut f m ns)
  | Single n =>
      let t := n_type n in
      if chars_eqb t (str "Tanh") then out (str "Tanh") (build_base m n)
      else if chars_eqb t (str "TanhLUT") then Err ETypeError
      else if chars_eqb t (str "Softmax") then out (str "Softmax") (build_base m n)
      else if chars_eqb t (str "QuantizeLinear") then out (str "QuantizeLinear") (build_qdq m n)
      else if chars_eqb t (str "DequantizeLinear") then out (str "DequantizeLinear") (build_qdq m n)
      else if chars_eqb t (str "QLinearAdd") then out (str "QLinearAdd") (build_binary false m n)
      else if chars_eqb t (str "QLinearMatMul") then out (str "QLinearMatMul") (build_binary true m n)
      else if chars_eqb t (str "QLinearSigmoid") then out (str "SigmoidLUT") (build_sigmoid f st m n)
      else Err EValueError
  end.
(** lines 35-42: the operators are built as the loop goes, so the first failing candidate is the one reported; candidates
    themselves never fail while operators remain *)
Definition build_graph (f : fns) (st : settings) (m : omodel) : res (list (jop jo)) :=
  match candidates (S (length (m_nodes m))) (m_nodes m) 0 with
  | Some (Ok cs) => mapM (build_op f st m) cs
  | Some (Err e) => Err e
  | None => Err ERuntimeError
  end.
(** 2json.py:24-33; both descriptions are built from the graph inputs *)
Record j2 := mkj2 { j2_graph : list (jop jo); j2_in : list (chars * Z); j2_out : list (chars * Z) }.
Definition model2json (f : fns) (st : settings) (m : omodel) : res j2 :=
  do g <- build_graph f st m;
  do i <- mapM layer_info_to_tensor (m_inputs m);
  do o <- mapM layer_info_to_tensor (m_inputs m);
  Ok (mkj2 g i o).

(** ** Reading the file in the engine *)
Definition to_jnet (j : j2) : jnet jo :=
  mkjnet (str "ONNX") (j2_graph j) (map (fun _ => Some (mkjnode None None)) (j2_in j)) (map (fun _ => Some (mkjnode None None)) (j2_out j)).
(** a sample: uint8 codes or floats *)
Inductive value := Codes (l : list Z) | Floats (l : list Q).
(** shape of np.array(a.tolist()): nested lists lose the extents after a 0 *)
Fixpoint tolist_shape (s : list nat) : list nat := match s with [] => [] | O :: _ => [0%nat] | n :: r => n :: tolist_shape r end.
Fixpoint list_nat_eqb (a b : list nat) : bool :=
  match a, b with [], [] => true | x :: a', y :: b' => (x =? y)%nat && list_nat_eqb a' b' | _, _ => false end.
Definition rows2 (t : nd Z) : res (list (list Z)) :=
  match nd_shape t with
  | [r; c] => Ok (map (fun i => map (fun j => nd_get t [i; j]) (seq 0 c)) (seq 0 r))
  | _ => Err EValueError  (* other ranks: not modelled *)
  end.
(** layers/onnx/softmax.py:24-35 on one vector (OnnxModel.softmax_infer is the batched form) *)
Definition softmax_vec (ex : Q -> Q) (x : list Q) : list Q := let t := sumQ (map ex x) in map (fun v => ex v / t)%Q x.
Definition need {A} (o : option A) : res A := match o with Some a => Ok a | None => Err ETypeError end.
(** build_operator.py:31-55 with from_model of each class (q_linear_add.py:45-78, q_linear_mmul.py:38-81, quantize_linear.py:23-37,
    dequantize_linear.py:28-42, lut.py:23-57).  A null scale or zero point raises TypeError only when used; here at loading.
    Applying an operator to the wrong kind of sample (floats where codes are expected) is not modelled and given as TypeError. *)
Definition load_onnx (f : fns) (k : okind) (o : jo) : res (layer value) :=
  let wrong : res value := Err ETypeError in
  match k with
  | OQuantize => do n <- py_index (jo_ins o) 0; do s <- need (q_scale n); do z <- need (q_zp n);
      Ok (fun v => match v with Floats x => Ok (Codes (nd_to_list (quantize_linear s z (nd_of_list 0%Q x)))) | _ => wrong end)
  | ODequantize => do n <- py_index (jo_ins o) 0; do s <- need (q_scale n); do z <- need (q_zp n);
      Ok (fun v => match v with Codes x => Ok (Floats (nd_to_list (dequantize_linear s z (nd_of_list 0 x)))) | _ => wrong end)
  | OAdd => do a <- py_index (jo_ins o) 0; do b <- py_index (jo_ins o) 1; do c <- py_index (jo_ins o) 2;
      match q_tensor b with
      | None => Err EValueError
      | Some t =>
          if list_nat_eqb (tolist_shape (nd_shape t)) (nd_shape t) then
            do is <- need (q_scale a); do iz <- need (q_zp a); do bs <- need (q_scale b); do bz <- need (q_zp b);
            do os <- need (q_scale c); do oz <- need (q_zp c);
            Ok (fun v => match v with
                         | Codes x => do r <- qadd_infer (mkqadd is iz t bs bz os oz) (nd_of_list 0 x); Ok (Codes (nd_to_list r))
                         | _ => wrong end)
          else Err EAssertionError
      end
  | OMatMul => do a <- py_index (jo_ins o) 0; do b <- py_index (jo_ins o) 1; do c <- py_index (jo_ins o) 2;
      match q_tensor b with
      | None => Err EValueError
      | Some t =>
          if list_nat_eqb (tolist_shape (nd_shape t)) (nd_shape t) then
            do is <- need (q_scale a); do iz <- need (q_zp a); do ws <- need (q_scale b); do wz <- need (q_zp b);
            do os <- need (q_scale c); do oz <- need (q_zp c);
            if Qeq_bool os 0 then Err EZeroDivision
            else do w <- rows2 t;
            Ok (fun v => match v with
                         | Codes x => do r <- qmm_infer (qmm_build is iz w ws wz os oz) (T1 x);
                                      match r with T1 y => Ok (Codes y) | _ => wrong end
                         | _ => wrong end)
          else Err EAssertionError
      end
  | OSigmoidLUT | OTanhLUT => do n <- py_index (jo_ins o) 0; do l <- lut_from_node (q_lut n);
      Ok (fun v => match v with Codes x => do r <- lut_infer l x; Ok (Codes r) | _ => wrong end)
  | OSoftmax => Ok (fun v => match v with
                             | Floats x => Ok (Floats (softmax_vec (f_exp f) x))
                             | _ => wrong end)
  | OTanh => Ok (fun v => match v with Floats x => Ok (Floats (map (f_tanh f) x)) | _ => wrong end)
  | OSigmoid => Err EValueError (* never exported by this converter *)
  end.
Definition onnx_builders (f : fns) : builders jo value := mkbuilders (fun _ _ => Err EValueError) (load_onnx f).
(** convert, load, infer *)
Definition execute (f : fns) (st : settings) (toi8 : value -> Z -> Q -> res value) (m : omodel) (v : value) : res value :=
  do j <- model2json f st m;
  do n <- seq_init (onnx_builders f) (to_jnet j);
  snd (seq_infer toi8 n v).
