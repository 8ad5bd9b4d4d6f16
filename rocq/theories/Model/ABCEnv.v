(** Model of chainerrl/envs/abc.py:81-161, the toy problem that the agents' tests train
    on.  Observations are lists of integers (0 or 1), rewards integers; the random numbers
    are arguments. *)
From Coq Require Import Reals List Arith ZArith Bool.
From Verif Require Import Base.PyBase Model.Distributions Model.Targets Model.ActionValue.
Import ListNotations.

(** abc.py:81-107: the constructor's arguments; the attributes [_state] and [_offset] do
    not exist before the first [reset]. *)
Record abc_conf := mk_abc { a_size : nat; a_po : bool; a_episodic : bool; a_det : bool }.
Record abc := mk_abc_state { a_state : nat; a_offset : nat }.
Definition n_max_offset : nat := 1.
Definition n_dim_obs (c : abc_conf) : nat := a_size c + 1 + n_max_offset.

(** abc.py:109-112. *)
Definition observe (c : abc_conf) (s : abc) : res (list Z) :=
  if a_state s + a_offset s <? n_dim_obs c then Ok (upd (repeat 0%Z (n_dim_obs c)) (a_state s + a_offset s) 1%Z)
  else Raise IndexError.
(** abc.py:114-127; [draw] is the result of [np.random.randint(2)]; [None] before the
    first reset. *)
Definition abc_reset (c : abc_conf) (draw : nat) (s : option abc) : res (list Z * abc) :=
  let offset :=
    if a_po c then
      if a_det c then ((match s with Some s => a_offset s | None => 0 end) + 1) mod (n_max_offset + 1) else draw
    else 0 in
  let s := mk_abc_state 0 offset in
  let! o := observe c s in Ok (o, s).
(** abc.py:140-161, for an inner discrete action.  [state == size - 1] is written without
    the subtraction. *)
Definition abc_step (c : abc_conf) (action : Z) (s : abc) : res (list Z * Z * bool * abc) :=
  let '(reward, done, state) :=
    if (action =? Z.of_nat (a_state s))%Z then
      if S (a_state s) =? a_size c then
        if a_episodic c then (1%Z, true, a_size c) else (1%Z, false, 0)
      else (0%Z, false, S (a_state s))
    else if a_episodic c then (0%Z, true, a_size c) else (0%Z, false, a_state s) in
  let s := mk_abc_state state (a_offset s) in
  let! o := observe c s in Ok (o, reward, done, s).
Fixpoint abc_steps (c : abc_conf) (actions : list Z) (s : abc) : res (list (list Z * Z * bool) * abc) :=
  match actions with
  | [] => Ok ([], s)
  | a :: actions =>
    let! (o, r, d, s) := abc_step c a s in
    let! (out, s) := abc_steps c actions s in Ok ((o, r, d) :: out, s)
  end.
(** A run of the environment: resets (with the random draw) and steps in any order; the
    observations made. *)
Inductive abc_op := AReset (draw : nat) | AStep (action : Z).
Fixpoint abc_run (c : abc_conf) (ops : list abc_op) (s : option abc) : res (list (list Z) * option abc) :=
  match ops with
  | [] => Ok ([], s)
  | AReset r :: ops =>
    let! (o, s) := abc_reset c r s in let! (os, s) := abc_run c ops (Some s) in Ok (o :: os, s)
  | AStep a :: ops =>
    match s with
    | None => Raise AttributeError
    | Some s =>
      let! (o, _, _, s) := abc_step c a s in let! (os, s) := abc_run c ops (Some s) in Ok (o :: os, s)
    end
  end.

(** abc.py:130-139: continuous actions are logits, clipped to [-1, 1].  [choice p] is the
    index drawn by [np.random.choice] with probabilities [p]. *)
Definition clip1 (x : R) : R := Rmin (Rmax x (-1)%R) 1%R.
Definition inner_probs (v : list R) : list R := let v := map clip1 v in map (fun x => exp x / fsum (map exp v))%R v.
Definition inner_action (det : bool) (choice : list R -> nat) (v : list R) : res Z :=
  if det then let! i := argmax_row (map clip1 v) in Ok (Z.of_nat i) else Ok (Z.of_nat (choice (inner_probs v))).
