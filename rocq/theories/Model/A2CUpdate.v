(** Model of the update of A2C (chainerrl/agents/a2c.py) with all its environments, in real
    arithmetic: arrays are lists of rows, one row per step and one column per environment.
    As in Model/PolicyGradient.v, [theta] is the position on a line through parameter space.
    Model/Returns.v has the indices and the storage of one column. *)
From Coq Require Import Reals List Arith Bool.
From Verif Require Import Base.PyBase Model.Distributions.
Import ListNotations.
Local Open Scope R_scope.

Record a2c_conf := mk_a2c_conf {
  a2_gamma : R; a2_tau : R; a2_use_gae : bool; a2_pi_coef : R; a2_v_coef : R; a2_entropy_coef : R }.

(** What an environment gives in a round of act and observe. *)
Record cell (St Act : Type) := mk_cell { e_state : St; e_action : Act; e_reward : R; e_done : bool }.
Arguments mk_cell {St Act}. Arguments e_state {St Act}. Arguments e_action {St Act}. Arguments e_reward {St Act}. Arguments e_done {St Act}.

(** Element-wise operations of numpy on arrays of the same shape, and [reshape((n, cols))] of a
    flat array (rows one after the other). *)
Definition mat2 (f : R -> R -> R) (a b : list (list R)) : list (list R) := map (fun z => zipr f (fst z) (snd z)) (combine a b).
Definition np_reshape {X : Type} (n cols : nat) (l : list X) : list (list X) := map (fun i => firstn cols (skipn (i * cols) l)) (seq 0 n).
Definition np_mean (l : list R) : R := fsum l / INR (length l).

(** a2c.py:169-172: [returns[:-1]], computed from the last row to the first; [next] is the row
    below the rows treated here. *)
Fixpoint plain_returns (gamma : R) (next : list R) (rewards masks : list (list R)) : list (list R) :=
  match rewards, masks with
  | r :: rewards, m :: masks =>
      let below := plain_returns gamma next rewards masks in
      zipr Rplus r (zipr Rmult (map (Rmult gamma) (hd next below)) m) :: below
  | _, _ => []
  end.
(** a2c.py:161-167: [gae] and [returns[:-1]]; [values] has one row more. *)
Fixpoint gae_returns (gamma tau : R) (cols : nat) (rewards masks values : list (list R)) : list R * list (list R) :=
  match rewards, masks, values with
  | r :: rewards, m :: masks, v :: ((v1 :: _) as values) =>
      let (gae, below) := gae_returns gamma tau cols rewards masks values in
      let delta := zipr Rminus (zipr Rplus r (zipr Rmult (map (Rmult gamma) v1) m)) v in
      let gae := zipr Rplus delta (zipr Rmult (map (Rmult (gamma * tau)) m) gae) in
      (gae, zipr Rplus gae v :: below)
  | _, _, _ => (repeat 0 cols, [])
  end.

Section A2CUpdate.
  Context {St Act : Type}.
  (** The model, which treats every row of a batch on its own. *)
  Variable value : R -> St -> R.
  Variable log_prob : R -> St -> Act -> R.
  Variable entropy : R -> St -> R.

  (** a2c.py:219-272: the arrays when the update starts, after [rounds] with the observations
      [last] at the end; the values were predicted by the same parameters [theta0]. *)
  Definition a2_states (rounds : list (list (cell St Act))) (last : list St) : list (list St) := map (map e_state) rounds ++ [last].
  Definition a2_actions (rounds : list (list (cell St Act))) : list (list Act) := map (map e_action) rounds.
  Definition a2_rewards (rounds : list (list (cell St Act))) : list (list R) := map (map e_reward) rounds.
  Definition a2_masks (rounds : list (list (cell St Act))) : list (list R) := map (map (fun x => if e_done x then 0 else 1)) rounds.
  Definition a2_value_preds (theta0 : R) (rounds : list (list (cell St Act))) : list (list R) := map (map (fun x => value theta0 (e_state x))) rounds.

  (** a2c.py:158-172 and 175-179: [returns[:-1]]. *)
  Definition a2_returns (c : a2c_conf) (cols : nat) (theta0 : R) (rounds : list (list (cell St Act))) (last : list St) : list (list R) :=
    let next_value := map (value theta0) last in
    if a2_use_gae c
    then snd (gae_returns (a2_gamma c) (a2_tau c) cols (a2_rewards rounds) (a2_masks rounds) (a2_value_preds theta0 rounds ++ [next_value]))
    else plain_returns (a2_gamma c) next_value (a2_rewards rounds) (a2_masks rounds).

  (** a2c.py:180-201: the loss as a function of the parameters; [advantages.array] is the
      advantage at [theta0]. *)
  Definition a2c_loss (c : a2c_conf) (cols : nat) (theta0 : R) (rounds : list (list (cell St Act))) (last : list St) (theta : R) : R :=
    let n := length rounds in
    let flat := concat (removelast (a2_states rounds last)) in
    let actions := concat (a2_actions rounds) in
    let dist_entropy := np_mean (map (entropy theta) flat) in
    let action_log_probs := np_reshape n cols (map (fun z => log_prob theta (fst z) (snd z)) (combine flat actions)) in
    let values := fun t => np_reshape n cols (map (value t) flat) in
    let advantages := fun t => mat2 Rminus (a2_returns c cols theta0 rounds last) (values t) in
    let value_loss := np_mean (concat (mat2 Rmult (advantages theta) (advantages theta))) in
    let action_loss := - np_mean (concat (mat2 Rmult (advantages theta0) action_log_probs)) in
    value_loss * a2_v_coef c + action_loss * a2_pi_coef c - dist_entropy * a2_entropy_coef c.
End A2CUpdate.

(** The single-environment methods of A2C: a method defined with [n_params] parameters, called on
    an object with [n_args] arguments (Python passes the object as one more). *)
Definition py_method_call {T : Type} (n_params n_args : nat) (body : res T) : res T :=
  if Nat.eqb n_params (S n_args) then body else Raise TypeError.
(** a2c.py:277-278: [def act_and_train(obs, reward)]. *)
Definition a2c_act_and_train_single {T : Type} : res T := py_method_call 2 2 (Raise RuntimeError).
(** a2c.py:289-290: [def stop_episode_and_train(self, state, reward, done=False)], called with all arguments. *)
Definition a2c_stop_and_train_single {T : Type} : res T := py_method_call 4 3 (Raise RuntimeError).
