(** Model of quantizer/itcl_quantizer/equalizers/adaround: annealer.py (RoundingAnnealer) and adaround.py
    (AdaRound.round).  Policies are integer arrays: a shape and the flattened (row-major) values.
    The base class simanneal.Annealer is an external library: [lib_anneal] follows its published loop
    (evaluate, accept or restore a copy, keep a copy of the best state); the temperature test is an arbitrary
    oracle.  Random draws are arguments.  [_past_permutations] is never added to, so the retry loop of
    move (lines 70-76) always leaves at once. *)
From Verif Require Import Base DtypeModel QuantModel NodeModel.
Open Scope Z_scope.
Open Scope list_scope.

Definition Qltb (x y : Q) : bool := negb (Qle_bool y x).

Record ptens := mkpt { pt_shape : list nat; pt_flat : list Z }.
Definition pstate := list ptens.

(** annealer.py:86 flatten[idx] = flatten[idx] ^ 1 *)
Fixpoint flip (l : list Z) (i : nat) : list Z :=
  match l, i with
  | [], _ => []
  | x :: r, O => Z.lxor x 1 :: r
  | x :: r, S j => x :: flip r j
  end.
(** annealer.py:71 for one tensor: randrange(len(t)) is a draw modulo the first dimension; len of a 0-d array is a TypeError,
    randrange(0) a ValueError *)
Definition draw1 (t : ptens) (r : nat) : res nat :=
  match pt_shape t with
  | [] => Err ETypeError
  | O :: _ => Err EValueError
  | n :: _ => Ok (r mod n)%nat
  end.
(** annealer.py:80-88 for one tensor: IndexError when a later dimension is 0 *)
Definition move1 (t : ptens) (i : nat) : res ptens :=
  if (i <? length (pt_flat t))%nat then Ok (mkpt (pt_shape t) (flip (pt_flat t) i)) else Err EIndexError.
(** annealer.py:71: one draw per tensor, then 78-88: one flip per tensor *)
Fixpoint draws (s : pstate) (rs : nat -> nat) : res (list nat) :=
  match s with
  | [] => Ok []
  | t :: r => do i <- draw1 t (rs O); do l <- draws r (fun k => rs (S k)); Ok (i :: l)
  end.
Fixpoint flips (s : pstate) (l : list nat) : res pstate :=
  match s, l with
  | t :: r, i :: l' => do t1 <- move1 t i; do r1 <- flips r l'; Ok (t1 :: r1)
  | _, _ => Ok []
  end.
(** annealer.py:64-89 move *)
Definition pmove (s : pstate) (rs : nat -> nat) : res pstate := do l <- draws s rs; flips s l.

Section Anneal.
Context (energy : pstate -> Q).

(** annealer.py:91-119 _to_minima; [st] is self.state; at most [turns] turns, None: still running *)
Record minima := mkmin { m_state : pstate; m_best : pstate; m_energy : Q; m_stuck : nat }.
Definition minima_step (rs : nat -> nat) (m : minima) : res minima :=
  do s <- pmove (m_state m) rs;
  let e := energy s in
  Ok (if Qltb e (m_energy m) then mkmin s s e 0 else mkmin (m_best m) (m_best m) (m_energy m) (S (m_stuck m))).
Fixpoint minima_loop (max turns : nat) (rs : nat -> nat -> nat) (m : minima) : res (option (pstate * Q)) :=
  match turns with
  | O => Ok None
  | S t =>
      do m1 <- minima_step (rs O) m;
      if (max <? m_stuck m1)%nat then Ok (Some (m_best m1, m_energy m1))
      else minima_loop max t (fun k => rs (S k)) m1
  end.
Definition to_minima (max turns : nat) (rs : nat -> nat -> nat) (st neigh : pstate) (e : Q) : res (option (pstate * Q)) :=
  minima_loop max turns rs (mkmin st neigh e 0).

(** simanneal.Annealer.anneal: [accept k] is the outcome of the temperature test at step k *)
Record lib := mklib { li_state : pstate; li_prev : pstate; li_prevE : Q; li_best : pstate; li_bestE : Q }.
Definition lib_step (rs : nat -> nat) (accept : bool) (l : lib) : res lib :=
  do s <- pmove (li_state l) rs;
  let e := energy s in
  Ok (if Qltb (li_prevE l) e && negb accept
      then mklib (li_prev l) (li_prev l) (li_prevE l) (li_best l) (li_bestE l)
      else if Qltb e (li_bestE l) then mklib s s e s e else mklib s s e (li_best l) (li_bestE l)).
Fixpoint lib_loop (steps : nat) (rs : nat -> nat -> nat) (accept : nat -> bool) (l : lib) : res lib :=
  match steps with
  | O => Ok l
  | S n => do l1 <- lib_step (rs O) (accept O) l; lib_loop n (fun k => rs (S k)) (fun k => accept (S k)) l1
  end.
Definition lib_anneal (steps : nat) (rs : nat -> nat -> nat) (accept : nat -> bool) (s0 : pstate) : res (pstate * Q) :=
  do l <- lib_loop steps rs accept (mklib s0 s0 (energy s0) s0 (energy s0));
  Ok (li_best l, li_bestE l).

(** sys.maxsize *)
Definition maxsize : Q := inject_Z (2 ^ 63 - 1).
(** annealer.py:121-131 anneal: [energy or sys.maxsize] replaces an energy of 0 *)
Definition anneal (steps max turns : nat) (rs rs' : nat -> nat -> nat) (accept : nat -> bool) (s0 : pstate) : res (option (pstate * Q)) :=
  do b <- lib_anneal steps rs accept s0;
  to_minima max turns rs' (fst b) (fst b) (if Qeq_bool (snd b) 0 then maxsize else snd b).
End Anneal.

(** ** adaround.py *)
(** what AdaRound optimises: tensor nodes, or the LUT of a node (keras_dense.py:381-398) *)
Inductive target := TNode (i : nat) | TLut (i : nat).
(** numpy integer array as an nd array of rationals (row-major) *)
Fixpoint flat_index (shape idx : list nat) : nat :=
  match shape, idx with
  | _ :: s, i :: r => (i * fold_right Nat.mul 1 s + flat_index s r)%nat
  | _, _ => 0%nat
  end.
Definition nd_of_pt (t : ptens) : nd Q := mknd (pt_shape t) (fun idx => inject_Z (nth (flat_index (pt_shape t) idx) (pt_flat t) 0)).
(** adaround.py:62-76 _update_weights *)
Definition set_target (w : world) (t : target) (p : ptens) : res world :=
  match t with
  | TNode i => do n <- set_policy (w i) (nd_of_pt p); Ok (upd w i n)
  | TLut i => match n_lut (w i) with
              | None => Err EAttributeError
              | Some l => Ok (upd w i (set_lut (w i) (Some (lut_set_policy l (nd_of_pt p)))))
              end
  end.
Fixpoint set_targets (w : world) (ts : list target) (ps : pstate) : res world :=
  match ts, ps with
  | t :: ts', p :: ps' => do w1 <- set_target w t p; set_targets w1 ts' ps'
  | _, _ => Ok w
  end.
