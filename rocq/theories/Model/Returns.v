(** Model of the advantage and return computations of PPO, TRPO, A2C, A3C and
    NSQ, over exact rationals (the code uses float32 arrays). *)
From Coq Require Import QArith.
From Verif Require Import Base.PyBase.
Set Implicit Arguments.
Local Open Scope nat_scope.

(** ** PPO and TRPO *)

(** The fields of a transition read by ppo.py:27-38; [nonterminal] is 0.0 or 1.0. *)
Record gtr := mk_gtr { g_reward : Q; g_nonterminal : bool; g_v : Q; g_next_v : Q }.
Definition q_of_bool (b : bool) : Q := if b then 1%Q else 0%Q.

(** One iteration of the loop of ppo.py:30-38; the accumulator holds ['adv'] and
    ['v_teacher'] of the transitions after this one. *)
Definition gae_step (gamma lambd : Q) (st : Q * list (Q * Q)) (x : gtr) : Q * list (Q * Q) :=
  let (adv, out) := st in
  let td_err := (g_reward x + (gamma * q_of_bool (g_nonterminal x) * g_next_v x) - g_v x)%Q in
  let adv := (td_err + gamma * lambd * adv)%Q in
  (adv, (adv, (adv + g_v x)%Q) :: out).

(** ppo.py:27-38 [_add_advantage_and_value_target_to_episode]. *)
Definition add_advantage (gamma lambd : Q) (episode : list gtr) : list (Q * Q) :=
  snd (fold_left (gae_step gamma lambd) (rev episode) (0%Q, [])).

(** ** A2C

    Arrays have one column per environment and all operations are element-wise,
    so one column is modelled; [py_get]/[py_set] are the numpy index operations. *)
Record a2c (Obs A : Type) := mk_a2c {
  a_t : nat; a_start : nat;
  a_states : list (option Obs);        (* zeros are [None] *)
  a_actions : list (option A);
  a_rewards : list Q;
  a_values : list Q;
  a_masks : list Q;
  a_updates : nat                    (* optimizer updates so far *)
}.

(** a2c.py:162-167: the loop body with GAE. *)
Definition a2c_gae_body (gamma tau : Q) (rewards values masks : list Q) (i : nat) (st : Q * list Q) : res (Q * list Q) :=
  let (gae, returns) := st in
  let! r := py_get rewards (Z.of_nat i) in
  let! v1 := py_get values (Z.of_nat i + 1) in
  let! m := py_get masks (Z.of_nat i) in
  let! v := py_get values (Z.of_nat i) in
  let delta := (r + gamma * v1 * m - v)%Q in
  let gae := (delta + gamma * tau * m * gae)%Q in
  let! returns := py_set returns (Z.of_nat i) (gae + v)%Q in
  Ok (gae, returns).

(** a2c.py:170-172: the loop body without GAE. *)
Definition a2c_body (gamma : Q) (rewards masks : list Q) (i : nat) (returns : list Q) : res (list Q) :=
  let! r := py_get rewards (Z.of_nat i) in
  let! next := py_get returns (Z.of_nat i + 1) in
  let! m := py_get masks (Z.of_nat i) in
  py_set returns (Z.of_nat i) (r + gamma * next * m)%Q.

(** [for i in reversed(range(n)): ...] *)
Fixpoint for_down {T} (n : nat) (body : nat -> T -> res T) (st : T) : res T :=
  match n with
  | O => Ok st
  | S i => let! st := body i st in for_down i body st
  end.

(** a2c.py:158-172 [_compute_returns]; [returns] is the array allocated by
    [_flush_storage] (zeros, or the values of the previous update). *)
Definition compute_returns (use_gae : bool) (gamma tau : Q) (update_steps : nat)
    (rewards values masks returns : list Q) (next_value : Q) : res (list Q) :=
  if use_gae then
    let! values := py_set values (-1) next_value in
    let! st := for_down update_steps (a2c_gae_body gamma tau rewards values masks) (0%Q, returns) in
    Ok (snd st)
  else
    let! returns := py_set returns (-1) next_value in
    for_down update_steps (a2c_body gamma rewards masks) returns.

Section A2C.
  Context {Obs A : Type}.
  Variable value : nat -> Obs -> Q.        (* the value output after that many updates *)
  Variables (use_gae : bool) (gamma tau : Q) (n : nat).   (* update_steps *)

  (** What one update trains on: states, actions and returns of the rows. *)
  Definition a2c_batch := list (Obs * A * Q)%type.

  Definition collect {X} (l : list (option X)) : res (list X) :=
    fold_right (fun o acc => match o with Some x => let! t := acc in Ok (x :: t) | None => Raise TypeError end) (Ok []) l.

  (** a2c.py:174-217 [update] (the loss and the optimizer are not modelled): the
      data it trains on.  An unwritten row (zeros in the code) counts as an error
      here; the theorems show it is never read. *)
  Definition a2c_update (s : a2c Obs A) : res (a2c_batch * a2c Obs A) :=
    let! last := py_get (a_states s) (-1) in
    match last with
    | None => Raise TypeError
    | Some last =>
      let! returns := compute_returns use_gae gamma tau n (a_rewards s) (a_values s) (a_masks s)
                        (repeat 0%Q (n + 1)) (value (a_updates s) last) in
      let! ss := collect (firstn (length (a_states s) - 1) (a_states s)) in
      let! acts := collect (a_actions s) in
      let! states := py_set (a_states s) 0 (Some last) in
      Ok (combine (combine ss acts) (firstn (length returns - 1) returns),
          mk_a2c (a_t s) (a_t s) states (a_actions s) (a_rewards s)
                 (if use_gae then upd (a_values s) n (value (a_updates s) last) else a_values s)
                 (a_masks s) (1 + a_updates s))
    end.

  (** a2c.py:85-156 [__init__] and [_flush_storage]. *)
  Definition a2c_init : a2c Obs A :=
    mk_a2c 0 0 (repeat None (n + 1)) (repeat None n) (repeat 0%Q n) (repeat 0%Q (n + 1)) (repeat 1%Q n) 0.

  (** a2c.py:219-244 [batch_act_and_train]; the sampled action is a parameter. *)
  Definition a2c_act (s : a2c Obs A) (obs : Obs) (action : A) : res (list a2c_batch * a2c Obs A) :=
    let! states := py_set (a_states s) (Z.of_nat (a_t s) - Z.of_nat (a_start s)) (Some obs) in
    let s := mk_a2c (a_t s) (a_start s) states (a_actions s) (a_rewards s) (a_values s) (a_masks s) (a_updates s) in
    let! us := if Nat.eqb (a_t s - a_start s) n then let! u := a2c_update s in Ok ([fst u], snd u) else Ok ([], s) in
    let (log, s) := us : list a2c_batch * a2c Obs A in
    let i := (Z.of_nat (a_t s) - Z.of_nat (a_start s))%Z in
    let! actions := py_set (a_actions s) i (Some action) in
    let! values := py_set (a_values s) i (value (a_updates s) obs) in
    Ok (log, mk_a2c (1 + a_t s) (a_start s) (a_states s) actions (a_rewards s) values (a_masks s) (a_updates s)).

  (** a2c.py:253-272 [batch_observe_and_train]; a reset counts as done. *)
  Definition a2c_observe (s : a2c Obs A) (obs : Obs) (reward : Q) (done reset : bool) : res (list a2c_batch * a2c Obs A) :=
    let done := done || reset in
    let i := (Z.of_nat (a_t s) - Z.of_nat (a_start s))%Z in
    let! masks := py_set (a_masks s) (i - 1) (if done then 0%Q else 1%Q) in
    let! rewards := py_set (a_rewards s) (i - 1) reward in
    let! states := py_set (a_states s) i (Some obs) in
    let s := mk_a2c (a_t s) (a_start s) states (a_actions s) rewards (a_values s) masks (a_updates s) in
    if Nat.eqb (a_t s - a_start s) n then let! u := a2c_update s in Ok ([fst u], snd u) else Ok ([], s).

  (** One round of batch training for this environment: act, then observe. *)
  Definition a2c_round := (Obs * A * (Obs * Q * bool * bool))%type.
  Definition a2c_step (s : a2c Obs A) (x : a2c_round) : res (list a2c_batch * a2c Obs A) :=
    let '(obs, act, (obs', r, done, reset)) := x in
    let! u := a2c_act s obs act in
    let! u' := a2c_observe (snd u) obs' r done reset in
    Ok (fst u ++ fst u', snd u').
  Fixpoint a2c_run (s : a2c Obs A) (xs : list a2c_round) : res (list a2c_batch * a2c Obs A) :=
    match xs with
    | [] => Ok ([], s)
    | x :: xs =>
      let! u := a2c_step s x in
      let! w := a2c_run (snd u) xs in
      Ok (fst u ++ fst w, snd w)
    end.
End A2C.

(** ** A3C and NSQ *)

(** Dictionaries keyed by integers. *)
Definition zdict (V : Type) := list (Z * V).
Fixpoint zd_get {V} (d : zdict V) (k : Z) : res V :=
  match d with
  | [] => Raise KeyError
  | (k', v) :: d' => if Z.eqb k k' then Ok v else zd_get d' k
  end.
Definition zd_set {V} (d : zdict V) (k : Z) (v : V) : zdict V := (k, v) :: d.

Section NStep.
  Context {Obs A : Type}.
  Variable value : nat -> Obs -> Q.   (* a3c: value output; nsq: max of the target's values *)
  Variables (gamma : Q) (t_max : nat).

  (** The dictionaries [past_states], [past_action_*] and [past_rewards]. *)
  Record nagent := mk_nagent {
    n_t : nat; n_start : nat;
    n_past : zdict (Obs * A);
    n_rewards : zdict Q;
    n_updates : nat
  }.
  Definition nagent_init : nagent := mk_nagent 0 0 [] [] 0.

  (** One update: for every trained step, its state, action and return [R]. *)
  Definition nbatch := list (Obs * A * Q)%type.

  (** a3c.py:168-171, nsq.py:92-94: [for i in reversed(range(t_start, t))];
      [use_average_reward] is off (its default). *)
  Fixpoint nloop (s : nagent) (i : nat) (k : nat) (R : Q) (out : nbatch) : res nbatch :=
    (* [k] steps remain, the last one is [i + k - 1] *)
    match k with
    | O => Ok out
    | S k' =>
      let j := Z.of_nat (i + k') in
      let R := (R * gamma)%Q in
      let! r := zd_get (n_rewards s) j in
      let R := (R + r)%Q in
      let! x := zd_get (n_past s) j in
      nloop s i k' R ((x, R) :: out)
    end.

  (** a3c.py:156-238 [update], nsq.py:81-124 [update]: targets; losses, gradients and
      optimizers are not modelled.  [statevar = None] stands for a terminal state. *)
  Definition nupdate (s : nagent) (statevar : option Obs) : res (nbatch * nagent) :=
    assert! Nat.ltb (n_start s) (n_t s) in
    let R := match statevar with None => 0%Q | Some x => value (n_updates s) x end in
    let! b := nloop s (n_start s) (n_t s - n_start s) R [] in
    Ok (b, mk_nagent (n_t s) (n_t s) [] [] (1 + n_updates s)).

  Inductive nstep_op := NAct (obs : Obs) (reward : Q) (action : A) | NStop (obs : Obs) (reward : Q) (done : bool).

  (** a3c.py:240-267 and nsq.py:126-157 [act_and_train]; a3c.py:279-288 and
      nsq.py:165-176 [stop_episode_and_train]. *)
  Definition nstep_run1 (s : nagent) (o : nstep_op) : res (list nbatch * nagent) :=
    match o with
    | NAct obs reward action =>
      let s := mk_nagent (n_t s) (n_start s) (n_past s) (zd_set (n_rewards s) (Z.of_nat (n_t s) - 1) reward) (n_updates s) in
      let! us := if Nat.eqb (n_t s - n_start s) t_max
                 then let! u := nupdate s (Some obs) in Ok ([fst u], snd u) else Ok ([], s) in
      let (log, s) := us : list nbatch * nagent in
      Ok (log, mk_nagent (1 + n_t s) (n_start s) (zd_set (n_past s) (Z.of_nat (n_t s)) (obs, action)) (n_rewards s) (n_updates s))
    | NStop obs reward done =>
      let s := mk_nagent (n_t s) (n_start s) (n_past s) (zd_set (n_rewards s) (Z.of_nat (n_t s) - 1) reward) (n_updates s) in
      let! u := nupdate s (if done then None else Some obs) in
      Ok ([fst u], snd u)
    end.
  Fixpoint nstep_runs (s : nagent) (os : list nstep_op) : res (list nbatch * nagent) :=
    match os with
    | [] => Ok ([], s)
    | o :: os =>
      let! u := nstep_run1 s o in
      let! w := nstep_runs (snd u) os in
      Ok (fst u ++ fst w, snd w)
    end.
End NStep.
Arguments nagent : clear implicits.
Arguments nstep_op : clear implicits.
