(** Model of core/itcl_quantization/quantization/operators.py, class Quantization (lines 79-193)
    and of quantizer/itcl_quantizer/equalizers/adaround/irounding_policy.py get_base_rounding.
    Floats are exact rationals; numpy arrays are functional n-dimensional arrays. *)
From Verif Require Import Base DtypeModel.
Open Scope Z_scope.
Open Scope list_scope.

(** An n-dimensional array: its shape and its value at every multi-index
    (only indices inside the shape are meaningful). *)
Record nd (A : Type) := mknd { nd_shape : list nat; nd_get : list nat -> A }.
Arguments mknd {A}. Arguments nd_shape {A}. Arguments nd_get {A}.

Fixpoint valid_idx (shape idx : list nat) : bool :=
  match shape, idx with
  | [], [] => true
  | n :: s, i :: r => (i <? n)%nat && valid_idx s r
  | _, _ => false
  end.

Definition nd_map {A B} (f : A -> B) (a : nd A) : nd B :=
  mknd (nd_shape a) (fun i => f (nd_get a i)).

(** numpy broadcasting: shapes aligned on the right, each pair equal or one of them 1. *)
Fixpoint bshape_rev (a b : list nat) : option (list nat) :=
  match a, b with
  | [], _ => Some b
  | _, [] => Some a
  | x :: a', y :: b' =>
      match bshape_rev a' b' with
      | None => None
      | Some r =>
          if (x =? y)%nat then Some (x :: r)
          else if (x =? 1)%nat then Some (y :: r)
          else if (y =? 1)%nat then Some (x :: r)
          else None
      end
  end.
Definition bshape (a b : list nat) : option (list nat) :=
  option_map (@rev nat) (bshape_rev (rev a) (rev b)).

(** Index of the operand of shape [s] for result index [idx]: drop the leading
    dimensions it lacks and pin dimensions of size 1. *)
Definition bidx (s idx : list nat) : list nat :=
  let i := skipn (length idx - length s) idx in
  map (fun p => if (fst p =? 1)%nat then 0%nat else snd p) (combine s i).

Definition nd_bin {A B C} (f : A -> B -> C) (a : nd A) (b : nd B) : option (nd C) :=
  match bshape (nd_shape a) (nd_shape b) with
  | None => None  (* numpy raises ValueError *)
  | Some s => Some (mknd s (fun i => f (nd_get a (bidx (nd_shape a) i)) (nd_get b (bidx (nd_shape b) i))))
  end.

(** operators.py:154-162 Quantization.round on one element: floor(data+extra), clip to the
    dtype, cast to int32. *)
Definition q_round (d : gdtype) (extra x : Q) : Z :=
  cast_i32 (clipZ (gmin d) (gmax d) (Qfloor (x + extra))).

(** operators.py:112-139 Quantization.quantize. [s] = 0 is outside the model (numpy yields inf/nan). *)
Definition quantize (d : gdtype) (data : nd Q) (zp : Z) (s : Q) (policy : option (nd Q)) : nd Z :=
  let float_res := nd_map (fun x => x / s + inject_Z zp)%Q data in
  match policy with
  | Some p =>
      match nd_bin Qplus float_res p with
      | Some r => nd_map (q_round d 0) r
      | None => nd_map (q_round d (1#2)) float_res    (* except ValueError: warning, fall through *)
      end
  | None => nd_map (q_round d (1#2)) float_res
  end.

(** operators.py:141-152 Quantization.dequantize: int32 array minus a Python int, times scale. *)
Definition dequant1 (zp : Z) (s : Q) (q : Z) : Q :=
  (inject_Z (wrap_s 32 (wrap_s 32 q - zp)) * s)%Q.
Definition dequantize (data : nd Z) (zp : Z) (s : Q) : nd Q := nd_map (dequant1 zp s) data.

(** One element of quantize without / with policy (used by 1-D callers). *)
Definition quant1 (d : gdtype) (zp : Z) (s x : Q) : Z := q_round d (1#2) (x / s + inject_Z zp).
Definition quant1p (d : gdtype) (zp : Z) (s x p : Q) : Z := q_round d 0 (x / s + inject_Z zp + p).

(** irounding_policy.py:23-33 get_base_rounding *)
Definition base_rounding1 (s x : Q) : Q :=
  if Qlt_le_dec (x / s) (inject_Z (Qfloor (x / s + (1#2)))) then 1%Q else 0%Q.
Definition get_base_rounding (t : nd Q) (s : Q) : nd Q := nd_map (base_rounding1 s) t.

(** 1-D arrays as lists *)
Definition nd_of_list {A} (dflt : A) (l : list A) : nd A :=
  mknd [length l] (fun i => nth (hd 0%nat i) l dflt).
Definition nd_to_list {A} (a : nd A) : list A :=
  map (fun i => nd_get a [i]) (seq 0 (hd 0%nat (nd_shape a))).

(** operators.py:170-172 range(min, max+1) *)
Definition code_range (d : gdtype) : list Z :=
  map (fun i => gmin d + Z.of_nat i) (seq 0 (Z.to_nat (gmax d + 1 - gmin d))).

(** operators.py:164-177 float_activation *)
Definition float_activation (d : gdtype) (f : Q -> Q) (in_s : Q) (in_zp : Z) : list Q :=
  map f (map (dequant1 in_zp in_s) (code_range d)).

(** operators.py:179-193 create_LUT *)
Definition create_LUT (d : gdtype) (f : Q -> Q) (in_s : Q) (in_zp : Z) (out_s : Q) (out_zp : Z)
  (policy : option (nd Q)) : list Z :=
  nd_to_list (quantize d (nd_of_list 0%Q (float_activation d f in_s in_zp)) out_zp out_s policy).
