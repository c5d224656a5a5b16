(** Model of core/itcl_quantization/quantization/lut.py, class ReducedLUT (lines 8-177). *)
From Verif Require Import Base.
Open Scope Z_scope.
Open Scope list_scope.

(** lut.py:103-122, the counting loop.  [acc] is the counter list reversed (its head is
    counter[-1]); [break] ends the recursion. *)
Fixpoint count_loop (depth : Z) (acc : list (Z * Z)) (lut : list Z) : list (Z * Z) :=
  match lut with
  | [] => acc
  | e :: rest =>
      match acc with
      | [] => acc  (* unreachable: the counter starts non-empty *)
      | (cv, cc) :: acc' =>
          if e =? cv then count_loop depth ((cv, cc + 1) :: acc') rest
          else if Z.of_nat (length acc) =? depth then acc           (* line 113-114 *)
          else count_loop depth ((e, 1) :: acc) rest                (* lines 116-122 *)
      end
  end.

(** lut.py:128-133: cumulative interval ends paired with the value *)
Fixpoint intervals_from (off : Z) (counter : list (Z * Z)) : list (Z * Z) :=
  match counter with
  | [] => []
  | (k, v) :: r => (off + v, k) :: intervals_from (off + v) r
  end.

(** lut.py:82-141 __reduce_lut_from_left *)
Definition reduce_lut (depth : Z) (lut : list Z) (reverse : bool) : Z * list (Z * Z) :=
  match lut with
  | [] => (0, [])
  | _ =>
      let l := if reverse then rev lut else lut in
      match l with
      | [] => (0, [])
      | x0 :: _ =>
          let counter := rev (count_loop depth [(x0, 0)] l) in
          let shift := sumZ (map snd counter) in
          let ints := intervals_from 0 counter in
          (shift,
           if reverse then map (fun p => (Z.of_nat (length l) - fst p, snd p)) ints else ints)
      end
  end.

(** The object's attributes *)
Record rlut := {
  r_lut : list Z; r_depth : Z; r_asym : bool; r_min : Z;
  r_ls : Z; r_lt : list (Z * Z); r_rs : Z; r_rt : list (Z * Z); r_red : list Z }.

(** lut.py:18-47 __init__ *)
Definition mk_rlut (lut : list Z) (depth min_reduce : Z) (asym : bool) : rlut :=
  let '(ls, lt) := reduce_lut depth lut false in
  let '(rs, rt) := reduce_lut depth (if asym then py_slice lut (Some ls) None else lut) true in
  let stop := if rs =? 0 then None else Some (- rs) in
  {| r_lut := lut; r_depth := depth; r_asym := asym; r_min := min_reduce;
     r_ls := ls; r_lt := lt; r_rs := rs; r_rt := rt;
     r_red := py_slice lut (Some ls) stop |}.

(** lut.py:62-64 / 71-73: first matching tuple *)
Fixpoint find_left (ts : list (Z * Z)) (index : Z) : option Z :=
  match ts with
  | [] => None
  | (e, v) :: r => if index <? e then Some v else find_left r index
  end.
Fixpoint find_right (ts : list (Z * Z)) (index : Z) : option Z :=
  match ts with
  | [] => None
  | (e, v) :: r => if e <=? index then Some v else find_right r index
  end.

(** lut.py:49-75 __getitem__ *)
Definition getitem (r : rlut) (index : Z) : res Z :=
  match (if index <? r_ls r then find_left (r_lt r) index else None) with
  | Some v => Ok v
  | None =>
      let lut_idx := index - r_ls r in
      if lut_idx <? Z.of_nat (length (r_red r)) then py_index (r_red r) lut_idx
      else match find_right (r_rt r) index with
           | Some v => Ok v
           | None => Err EIndexError
           end
  end.

(** lut.py:77-80 __iter__, fully consumed *)
Definition iter (r : rlut) : res (list Z) :=
  mapM (getitem r) (map Z.of_nat (seq 0 (length (r_lut r)))).

(** lut.py:143-162 serialize (the description string is omitted; JSON turns tuples into lists,
    which indexing does not distinguish) *)
Record side_json := { sj_shift : Z; sj_len : Z; sj_tuples : list (Z * Z) }.
Record rlut_json := {
  j_len : Z; j_red : list Z; j_head : side_json; j_tail : side_json;
  j_depth : Z; j_min : Z; j_asym : bool }.
Definition serialize (r : rlut) : rlut_json :=
  {| j_len := Z.of_nat (length (r_red r)); j_red := r_red r;
     j_head := {| sj_shift := r_ls r; sj_len := Z.of_nat (length (r_lt r)); sj_tuples := r_lt r |};
     j_tail := {| sj_shift := r_rs r; sj_len := Z.of_nat (length (r_rt r)); sj_tuples := r_rt r |};
     j_depth := r_depth r; j_min := r_min r; j_asym := r_asym r |}.

(** lut.py:164-177 deserialize *)
Definition deserialize (j : rlut_json) : rlut :=
  let r0 := mk_rlut [] (j_depth j) (j_min j) (j_asym j) in
  {| r_lut := r_lut r0; r_depth := r_depth r0; r_asym := r_asym r0; r_min := r_min r0;
     r_ls := sj_shift (j_head j); r_lt := sj_tuples (j_head j);
     r_rs := sj_shift (j_tail j); r_rt := sj_tuples (j_tail j);
     r_red := j_red j |}.
