(** Model of core/itcl_quantization/quantization/operators.py, class GenericDtype (lines 32-76).
    Strings are lists of ASCII characters (Python's \d also matches non-ASCII digits and
    .lower() handles Unicode: not modelled). *)
From Verif Require Import Base.
From Coq Require Export Ascii.
From Coq Require String.
Export String.StringSyntax.
From Coq Require Import Decimal DecimalString DecimalN.
Open Scope string_scope.
Open Scope Z_scope.
Open Scope list_scope.

Definition chars := list ascii.
Definition chars_of (s : String.string) : chars := String.list_ascii_of_string s.

Definition is_digit (c : ascii) : bool :=
  let n := N_of_ascii c in (48 <=? n)%N && (n <=? 57)%N.
Definition is_upper (c : ascii) : bool :=
  let n := N_of_ascii c in (65 <=? n)%N && (n <=? 90)%N.
Definition is_lower (c : ascii) : bool :=
  let n := N_of_ascii c in (97 <=? n)%N && (n <=? 122)%N.
Definition is_alpha (c : ascii) : bool := is_upper c || is_lower c.

(** str.lower / str.upper on ASCII *)
Definition lower_c (c : ascii) : ascii :=
  if is_upper c then ascii_of_N (N_of_ascii c + 32) else c.
Definition upper_c (c : ascii) : ascii :=
  if is_lower c then ascii_of_N (N_of_ascii c - 32) else c.
Definition lower (s : chars) : chars := map lower_c s.
Definition upper (s : chars) : chars := map upper_c s.

Fixpoint takewhile (p : ascii -> bool) (s : chars) : chars :=
  match s with [] => [] | c :: r => if p c then c :: takewhile p r else [] end.
Fixpoint dropwhile (p : ascii -> bool) (s : chars) : chars :=
  match s with [] => [] | c :: r => if p c then dropwhile p r else s end.

(** re.findall(p+, s)[0]: the first maximal run, IndexError when there is none. *)
Definition first_run (p : ascii -> bool) (s : chars) : res chars :=
  match takewhile p (dropwhile (fun c => negb (p c)) s) with
  | [] => Err EIndexError
  | r => Ok r
  end.

(** int(run of decimal digits) and f"{n}" *)
Definition int_of_digits (s : chars) : res N :=
  match NilEmpty.uint_of_string (String.string_of_list_ascii s) with
  | Some u => Ok (N.of_uint u)
  | None => Err EValueError
  end.
Definition dec (n : N) : chars := chars_of (NilEmpty.string_of_uint (N.to_uint n)).

Fixpoint chars_eqb (a b : chars) : bool :=
  match a, b with
  | [], [] => true
  | x :: a', y :: b' => Ascii.eqb x y && chars_eqb a' b'
  | _, _ => false
  end.

Record gdtype := { gmin : Z; gmax : Z; grepr : chars }.

(** operators.py:33 ALLOWED_STR_TYPES *)
Definition ALLOWED : list chars := [chars_of "int"; chars_of "float"; chars_of "uint"].

(** operators.py:49-64 __build_str_dtype *)
Definition parse_dtype (dtype : chars) : res gdtype :=
  do ds <- first_run is_digit dtype;
  do bits <- int_of_digits ds;
  do ty0 <- first_run is_alpha dtype;
  let ty := lower ty0 in
  let signed := chars_eqb ty (chars_of "int") in
  if negb (existsb (chars_eqb ty) ALLOWED) then Err ETypeError
  else if (bits <=? 0)%N then Err ETypeError
  else
    let b := Z.of_N bits in
    let mn := if signed then - 2 ^ (b - 1) else 0 in
    let mx := if signed then 2 ^ (b - 1) - 1 else 2 ^ b - 1 in
    let repr := ty ++ dec bits in
    if negb (chars_eqb repr (lower dtype)) then Err ETypeError
    else Ok {| gmin := mn; gmax := mx; grepr := repr |}.

(** operators.py:41-47 __build_numpy_dtype: np.iinfo knows exactly these classes;
    every other object raises and is re-raised as TypeError. *)
Inductive npdtype := NpInt (signed : bool) (log8 : nat) (* 8 * 2^log8 bits *) | NpOther.
Definition np_bits (k : nat) : Z := 8 * 2 ^ Z.of_nat k.
Definition np_min (signed : bool) (b : Z) : Z := if signed then - 2 ^ (b - 1) else 0.
Definition np_max (signed : bool) (b : Z) : Z := if signed then 2 ^ (b - 1) - 1 else 2 ^ b - 1.
Definition np_name (signed : bool) (k : nat) : chars :=
  (if signed then chars_of "int" else chars_of "uint") ++ dec (Z.to_N (np_bits k)).
Definition numpy_dtype (d : npdtype) : res gdtype :=
  match d with
  | NpInt s k =>
      if (k <=? 3)%nat then
        Ok {| gmin := np_min s (np_bits k); gmax := np_max s (np_bits k); grepr := np_name s k |}
      else Err ETypeError
  | NpOther => Err ETypeError
  end.
