(** Model of quantizer/itcl_quantizer/equalizers/param_equalizer: abstract_param_optimizer.py
    (random perturbations, copy, move) and bfs_equalizer.py (BFSEqualizer), on the node store of NodeModel.
    Random draws are arguments: every theorem holds for all of them.  Floats are exact rationals;
    [math.log10] is exact (see [eq_scale_at] for what a mis-rounded logarithm would do). *)
From Verif Require Import Base DtypeModel QuantModel NodeModel.
Open Scope Z_scope.
Open Scope list_scope.

Definition Qltb (x y : Q) : bool := negb (Qle_bool y x).

(** the three calls to random() a move makes for one node (the first only happens in the last branch of _eq_zp) *)
Record draw := mkdraw { r_zp : Q; r_mag : Q; r_sign : Q }.

(** abstract_param_optimizer.py:79-95 _eq_zp *)
Definition eq_zp (q : gdtype) (z : Z) (r : Q) : Z :=
  if z =? gmin q then z + 1
  else if z =? gmax q then z - 1
  else z + (if Qltb (1#2) r then 1 else -1).

(** floor(log10(s)) for s > 0: the k with 10^k <= s < 10^(k+1), by search *)
Fixpoint log10_up (fuel : nat) (s : Q) (k : Z) : Z :=
  match fuel with
  | O => k
  | S f => if Qle_bool (Qpower 10 (k + 1)) s then log10_up f s (k + 1) else k
  end.
Fixpoint log10_down (fuel : nat) (s : Q) (k : Z) : Z :=
  match fuel with
  | O => k
  | S f => if Qle_bool (Qpower 10 k) s then k else log10_down f s (k - 1)
  end.
Definition floor_log10 (s : Q) : Z :=
  if Qle_bool 1 s then log10_up (Z.to_nat (Z.log2 (Qfloor s) + 1)) s 0
  else log10_down (Z.to_nat (Z.log2 (Zpos (Qden s)) + 2)) s 0.

(** abstract_param_optimizer.py:65-77 _eq_scale with a given value of floor(log10(scale)) *)
Definition eq_scale_at (k : Z) (s : Q) (r_mag r_sign : Q) : Q :=
  (s + r_mag / Qpower 10 (- k + 1) * (if Qltb (1#2) r_sign then -1 else 1))%Q.
(** log10 of a non-positive number is a ValueError *)
Definition eq_scale (s : Q) (r_mag r_sign : Q) : res Q :=
  if Qltb 0 s then Ok (eq_scale_at (floor_log10 s) s r_mag r_sign) else Err EValueError.

(** abstract_param_optimizer.py:110-124 move; [fuel] is the recursion limit of the hooks (NodeModel) *)
Definition move_one (fuel : nat) (w : world) (i : nat) (d : draw) : res world :=
  let z := eq_zp (n_q (w i)) (n_zp (w i)) (r_zp d) in
  do s <- eq_scale (n_scale (w i)) (r_mag d) (r_sign d);
  update fuel w i s z true.
Fixpoint move (fuel : nat) (w : world) (ts : list nat) (ds : nat -> draw) : res world :=
  match ts with
  | [] => Ok w
  | i :: r => do w1 <- move_one fuel w i (ds O); move fuel w1 r (fun k => ds (S k))
  end.

(** abstract_param_optimizer.py:97-108 copy *)
Fixpoint copy (fuel : nat) (w : world) (to from : list nat) (rq : bool) : res world :=
  match to, from with
  | t :: to', f :: from' => do w1 <- update fuel w t (n_scale (w f)) (n_zp (w f)) rq; copy fuel w1 to' from' rq
  | _, _ => Ok w
  end.

(** deepcopy(self._tensors): the copies are new objects base, base+1, ...; functions are not deep-copied,
    so the hooks of the copies still act on the original nodes *)
Fixpoint deepcopy (w : world) (base : nat) (ts : list nat) : world :=
  match ts with
  | [] => w
  | i :: r => deepcopy (upd w base (w i)) (S base) r
  end.

(** bfs_equalizer.py:25-48 optimize.  [cost] is the deterministic loss of the network (it is evaluated twice
    per move with the same result).  [b_seen] is a ghost field: the costs evaluated so far, newest first. *)
Record bfs := mkbfs { b_w : world; b_best : Q; b_retries : nat; b_seen : list Q }.
Definition bfs_init (cost : world -> Q) (w : world) (base : nat) (ts : list nat) : bfs :=
  let w1 := deepcopy w base ts in mkbfs w1 (cost w1) 0 [cost w1].
(** lines 32-44: one turn of the loop *)
Definition bfs_step (fuel : nat) (cost : world -> Q) (ts cs : list nat) (ds : nat -> draw) (st : bfs) : res bfs :=
  do w1 <- move fuel (b_w st) ts ds;
  let c := cost w1 in
  if Qltb c (b_best st)
  then do w2 <- copy fuel w1 cs ts false; Ok (mkbfs w2 c 0 (c :: b_seen st))
  else do w2 <- copy fuel w1 ts cs false; Ok (mkbfs w2 (b_best st) (S (b_retries st)) (c :: b_seen st)).
(** the loop, at most [turns] turns; None: still running *)
Fixpoint bfs_loop (fuel : nat) (cost : world -> Q) (ts cs : list nat) (max : nat) (turns : nat)
    (ds : nat -> nat -> draw) (st : bfs) : res (option bfs) :=
  match turns with
  | O => Ok None
  | S t =>
      do st1 <- bfs_step fuel cost ts cs (ds O) st;
      if (max <? b_retries st1)%nat then Ok (Some st1)
      else bfs_loop fuel cost ts cs max t (fun k => ds (S k)) st1
  end.
(** lines 46-48: final copy with requantization; the result is (final store, best cost, ghost costs) *)
Definition bfs_optimize (fuel : nat) (cost : world -> Q) (w : world) (base : nat) (ts : list nat) (max turns : nat)
    (ds : nat -> nat -> draw) : res (option (world * Q * list Q)) :=
  let cs := seq base (length ts) in
  do r <- bfs_loop fuel cost ts cs max turns ds (bfs_init cost w base ts);
  match r with
  | None => Ok None
  | Some st => do w' <- copy fuel (b_w st) ts cs true; Ok (Some (w', b_best st, b_seen st))
  end.

(** keras_dense.py:407-461 (_get_nodes_eq, param_equalizer, param_equalizer_bundle) for layer number t of a stack
    of dense layers (NodeModel.add_dense allocates kernel, bias, bias-add, activation output as 4t+1 .. 4t+4) *)
Definition layer_nodes (t : nat) (has_act : bool) : list nat :=
  [4 * t + 1; 4 * t + 3]%nat ++ (if has_act then [4 * t + 4]%nat else []).
(** keras_dense.py:423-446: the groups one layer optimises, one after the other *)
Definition layer_groups (t : nat) (has_act : bool) : list (list nat) :=
  layer_nodes t has_act :: (if has_act then [[4 * t + 4]%nat] else []).
(** param_equalizer.py:39-52 ParamEqualizerNet.equalize: layers in reverse *)
Definition net_groups (acts : list bool) : list (list nat) :=
  concat (rev (map (fun p => layer_groups (fst p) (snd p)) (combine (seq 0 (length acts)) acts))).
(** param_equalizer.py:67-75 ParamEqualizerFullNet.equalize: one group *)
Definition full_groups (acts : list bool) : list (list nat) :=
  [concat (map (fun p => layer_nodes (fst p) (snd p)) (combine (seq 0 (length acts)) acts))].
(** a fresh BFSEqualizer per group *)
Fixpoint equalize (fuel : nat) (cost : world -> Q) (next max turns : nat) (w : world) (gs : list (list nat))
    (ds : nat -> nat -> nat -> draw) : res (option world) :=
  match gs with
  | [] => Ok (Some w)
  | g :: r =>
      do o <- bfs_optimize fuel cost w next g max turns (ds O);
      match o with
      | None => Ok None
      | Some (w1, _, _) => equalize fuel cost next max turns w1 r (fun k => ds (S k))
      end
  end.
