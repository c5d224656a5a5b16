(** Model of quantizer/itcl_quantizer/equalizers/param_equalizer/annealer.py (ParamEqAnnealer, lines 9-63) on the node
    store of NodeModel, with the moves of abstract_param_optimizer.py (EqModel).
    The annealing loop is simanneal's Annealer.anneal (external; the published loop is transcribed).  The annealing
    test [exp(-dE/T) < random()] is an oracle: every theorem holds for all its outcomes, so for every temperature
    schedule.  Floats are exact rationals. *)
From Verif Require Import Base DtypeModel QuantModel NodeModel EqModel.
Open Scope Z_scope.
Open Scope list_scope.

(** self.state, prevState, self.best_state are lists of node objects; [p_next] is the next free object *)
Record pan := mkpan { p_w : world; p_st : list nat; p_prev : list nat; p_best : list nat; p_next : nat; p_prevE : Q; p_bestE : Q }.

(** simanneal copy_state with copy_strategy "deepcopy": new node objects (EqModel.deepcopy: hooks still act on the originals) *)
Definition copy_state (w : world) (next : nat) (l : list nat) : world * list nat * nat :=
  (deepcopy w next l, seq next (length l), (next + length l)%nat).

(** Annealer.anneal before the loop: E = self.energy(); prevState = copy_state(state); best_state = copy_state(state).
    annealer.py:47-55 energy: the loss closure ignores its argument (abstract_param_optimizer.py:45: lambda x: fn()),
    so [cost] sees the whole store, not self.state *)
Definition pan_init (cost : world -> Q) (w : world) (next : nat) (ts : list nat) : pan :=
  let e := cost w in
  let '(w1, prev, n1) := copy_state w next ts in
  let '(w2, best, n2) := copy_state w1 n1 ts in
  mkpan w2 ts prev best n2 e e.

(** one turn: move (annealer.py inherits abstract_param_optimizer.py:110-124), energy, then reject
    (self.state = copy_state(prevState)) or accept *)
Definition pan_step (fuel : nat) (cost : world -> Q) (ds : nat -> draw) (accept : bool) (p : pan) : res pan :=
  do w1 <- move fuel (p_w p) (p_st p) ds;
  let e := cost w1 in
  if (Qltb 0 (e - p_prevE p) && negb accept)%bool
  then let '(w2, st, n2) := copy_state w1 (p_next p) (p_prev p) in
       Ok (mkpan w2 st (p_prev p) (p_best p) n2 (p_prevE p) (p_bestE p))
  else let '(w2, prev, n2) := copy_state w1 (p_next p) (p_st p) in
       if Qltb e (p_bestE p)
       then let '(w3, best, n3) := copy_state w2 n2 (p_st p) in Ok (mkpan w3 (p_st p) prev best n3 e e)
       else Ok (mkpan w2 (p_st p) prev (p_best p) n2 e (p_bestE p)).
Fixpoint pan_loop (fuel : nat) (cost : world -> Q) (steps : nat) (ds : nat -> nat -> draw) (accept : nat -> bool) (p : pan) : res pan :=
  match steps with
  | O => Ok p
  | S n => do p1 <- pan_step fuel cost (ds O) (accept O) p; pan_loop fuel cost n (fun k => ds (S k)) (fun k => accept (S k)) p1
  end.
(** annealer.py:37-45, 57-63 anneal / optimize on the state set by set_initial_neigh (abstract_param_optimizer.py:48-63):
    after the loop self.state = copy_state(best_state); the result is (best_state, best_energy).
    We return the final store, the objects returned and the cost returned. *)
Definition pan_optimize (fuel : nat) (cost : world -> Q) (steps : nat) (w : world) (next : nat) (ts : list nat)
    (ds : nat -> nat -> draw) (accept : nat -> bool) : res (world * list nat * Q) :=
  do p <- pan_loop fuel cost steps ds accept (pan_init cost w next ts);
  let '(w1, _, _) := copy_state (p_w p) (p_next p) (p_best p) in
  Ok (w1, p_best p, p_bestE p).
