(** Model of chainerrl/explorers/epsilon_greedy.py (whole file),
    chainerrl/experiments/hooks.py lines 29-58 (LinearInterpolationHook).
    Logging is left out. *)
From Verif Require Import Base.PyBase Model.Num.
Set Implicit Arguments.

(** The two functions an epsilon-greedy explorer can call. *)
Inductive acall := CallRandom | CallGreedy.

Section Epsilon.
Variable N : num.
Notation V := (nV N).

Definition nleb (a b : V) : bool := negb (nltb N b a).

(** epsilon_greedy.py:8-13 [select_action_epsilon_greedily]; [u] is the value of
    [np.random.rand()], [random] and [greedy] what the two functions would
    return.  The third component records which of them was called. *)
Definition select_epsilon_greedily {A} (epsilon u : V) (random greedy : A)
  : A * bool * list acall :=
  if nltb N u epsilon then (random, false, [CallRandom]) else (greedy, true, [CallGreedy]).

(** epsilon_greedy.py:25-30 [ConstantEpsilonGreedy.__init__]: the explorer is its
    epsilon. *)
Definition constant_init (epsilon : V) : res V :=
  assert! nleb (nzero N) epsilon && nleb epsilon (none_ N) in Ok epsilon.

(** epsilon_greedy.py:32-37 [ConstantEpsilonGreedy.select_action]. *)
Definition constant_select {A} (epsilon u : V) (random greedy : A) : A * list acall :=
  let '(a, _, calls) := select_epsilon_greedily epsilon u random greedy in (a, calls).

(** epsilon_greedy.py:55-65 — the attributes of LinearDecayEpsilonGreedy. *)
Record decay := mk_decay { d_start : V; d_end : V; d_steps : Z; d_epsilon : V }.

(** epsilon_greedy.py:55-65 [LinearDecayEpsilonGreedy.__init__], for an integer
    [decay_steps]. *)
Definition decay_init (start end_ : V) (steps : Z) : res decay :=
  assert! nleb (nzero N) start && nleb start (none_ N) in
  assert! nleb (nzero N) end_ && nleb end_ (none_ N) in
  assert! (0 <=? steps)%Z in
  Ok (mk_decay start end_ steps start).

(** epsilon_greedy.py:67-72 [compute_epsilon], for [t >= 0]. *)
Definition compute_epsilon (d : decay) (t : nat) : res V :=
  if (d_steps d <? Z.of_nat t)%Z then Ok (d_end d)
  else
    let epsilon_diff := nsub N (d_end d) (d_start d) in
    if (d_steps d =? 0)%Z then Raise ZeroDivisionError
    else Ok (nadd N (d_start d)
                  (nmul N epsilon_diff
                        (ndiv N (nofnat N t) (nofnat N (Z.to_nat (d_steps d)))))).

(** epsilon_greedy.py:74-80 [LinearDecayEpsilonGreedy.select_action]. *)
Definition decay_select {A} (d : decay) (t : nat) (u : V) (random greedy : A)
  : res (A * list acall * decay) :=
  let! e := compute_epsilon d t in
  let d := mk_decay (d_start d) (d_end d) (d_steps d) e in
  let '(a, _, calls) := select_epsilon_greedily (d_epsilon d) u random greedy in
  Ok (a, calls, d).

(** A history of select_action calls: time step, draw, random and greedy action. *)
Fixpoint decay_run {A} (d : decay) (calls : list (nat * V * A * A)) : res (list (A * list acall) * decay) :=
  match calls with
  | [] => Ok ([], d)
  | (t, u, ra, ga) :: rest =>
      let! r := decay_select d t u ra ga in
      let '(a, c, d) := r in
      let! rr := decay_run d rest in
      let '(out, d) := rr in
      Ok ((a, c) :: out, d)
  end.

(** [np.interp(x, [x0, x1], [f0, f1])] for x0 <= x1, following numpy's C code
    (arr_interp): values outside the range are clamped, a value at or beyond the
    last abscissa gives the last ordinate. *)
Definition interp2 (x x0 x1 : nat) (f0 f1 : V) : V :=
  if x <? x0 then f0
  else if x1 <=? x then f1
  else nadd N (nmul N (ndiv N (nsub N f1 f0) (nsub N (nofnat N x1) (nofnat N x0)))
                    (nsub N (nofnat N x) (nofnat N x0))) f0.

(** hooks.py:48-52 [LinearInterpolationHook.__init__]. *)
Record lin_hook := mk_hook { h_total : nat; h_start : V; h_stop : V }.

(** hooks.py:54-58 [LinearInterpolationHook.__call__]: the value passed to the
    setter at a step. *)
Definition hook_value (h : lin_hook) (step : nat) : V :=
  interp2 step 1 (h_total h) (h_start h) (h_stop h).
End Epsilon.
