(** Model of the target values and losses of the Q-learning agents: agents/dqn.py,
    double_dqn.py, sarsa.py, dpp.py, al.py, pal.py, double_pal.py, residual_dqn.py,
    iqn.py, double_iqn.py, ddpg.py, td3.py, soft_actor_critic.py and pgt.py, in real arithmetic.
    Networks are functions from a preprocessed observation to their output; gradients
    and recurrent models are not modelled. *)
From Coq Require Import Reals List.
From Verif Require Import Base.PyBase Model.ReplayUpdater Model.Distributions.
Import ListNotations.
Local Open Scope R_scope.

(** ** Discrete action values (action_value.py:43-80), one row of Q values.
    Actions are valid indices and there is at least one action. *)
Definition q_greedy (qs : list R) : nat := match qs with [] => 0%nat | x :: t => argmax_from 1 0 x t end.
Definition q_evaluate (qs : list R) (a : nat) : R := nth a qs 0.
Definition q_maximum (qs : list R) : R := q_evaluate qs (q_greedy qs).
Definition q_advantage (qs : list R) (a : nat) : R := q_evaluate qs a - q_maximum qs.
Definition q_expectation (qs : list R) (beta : R) : R := fsum (zipr Rmult (softmax (map (Rmult beta) qs)) qs).

(** ** Bootstrapped targets *)
Definition terminal_flag (b : bool) : R := if b then 1 else 0.
(** [batch_rewards + discount * (1.0 - batch_terminal) * next], one row. *)
Definition td_row (r discount : R) (terminal : bool) (next : R) : R := r + discount * (1 - terminal_flag terminal) * next.
Fixpoint td_rows (rs ds : list R) (ts : list bool) (vs : list R) : list R :=
  match rs, ds, ts, vs with r :: rs, d :: ds, t :: ts, v :: vs => td_row r d t v :: td_rows rs ds ts vs | _, _, _, _ => [] end.

Section Agents.
  Context {A S' : Type}.
  Notation bat := (@batch A S').
  Definition td_targets (next : S' -> R) (b : bat) : list R :=
    td_rows (b_reward b) (b_discount b) (b_terminal b) (map next (b_next_state b)).

  (** dqn.py:289-304; residual_dqn.py:15-32 is the same with the online network. *)
  Definition dqn_targets (target : S' -> list R) : bat -> list R := td_targets (fun s => q_maximum (target s)).
  (** double_dqn.py:11-42. *)
  Definition double_dqn_targets (online target : S' -> list R) : bat -> list R :=
    td_targets (fun s => q_evaluate (target s) (q_greedy (online s))).
  (** sarsa.py:13-37: [choose] is the explorer's choice for that row. *)
  Definition sarsa_targets (choose : S' -> nat) (target : S' -> list R) : bat -> list R :=
    td_targets (fun s => q_evaluate (target s) (choose s)).
  (** dpp.py:20-36, and the three operators (dpp.py:82-123). *)
  Inductive dpp_kind := DPP (eta : R) | DPPL (eta : R) | DPPGreedy.
  Definition l_operator (k : dpp_kind) (qs : list R) : R :=
    match k with
    | DPP eta => q_expectation qs eta
    | DPPL eta => logsumexp (map (Rmult eta) qs) / eta
    | DPPGreedy => q_maximum qs
    end.
  Definition dpp_targets (k : dpp_kind) (target : S' -> list R) : bat -> list R := td_targets (fun s => l_operator k (target s)).
  (** td3.py:180-198: [act] is the smoothed target policy. *)
  Definition td3_targets {U} (act : S' -> U) (q1 q2 : S' -> U -> R) : bat -> list R :=
    td_targets (fun s => Rmin (q1 s (act s)) (q2 s (act s))).
  (** soft_actor_critic.py:207-228: [act] gives a sampled action and its log probability. *)
  Definition sac_targets {U} (temperature : R) (act : S' -> U * R) (q1 q2 : S' -> U -> R) : bat -> list R :=
    td_targets (fun s => Rmin (q1 s (fst (act s))) (q2 s (fst (act s))) - temperature * snd (act s)).
  (** pgt.py:153-165. *)
  Definition pgt_targets {U} (act : S' -> U) (q : S' -> U -> R) : bat -> list R := td_targets (fun s => q s (act s)).
  (** ddpg.py:174-198: the discount is [self.gamma], not the batch's discount. *)
  Definition ddpg_targets {U} (gamma : R) (act : S' -> U) (q : S' -> U -> R) (b : bat) : list R :=
    td_rows (b_reward b) (map (fun _ => gamma) (b_reward b)) (b_terminal b) (map (fun s => q s (act s)) (b_next_state b)).
  (** iqn.py:308-340 and double_iqn.py:18-65: one target per sampled quantile. *)
  Definition iqn_targets (quantiles : S' -> list R) (b : bat) : list (list R) :=
    map (fun z => let '(r, d, t, s) := z in map (td_row r d t) (quantiles s))
        (combine (combine (combine (b_reward b) (b_discount b)) (b_terminal b)) (b_next_state b)).
End Agents.

(** ** Advantage learning operators, one row *)
(** al.py:56-68. *)
Definition al_target (alpha t_q : R) (target_qs : list R) (a : nat) : R := t_q + alpha * q_advantage target_qs a.
(** pal.py:54-70 and double_pal.py:46-62. *)
Definition pal_target (alpha t_q : R) (target_qs target_next_qs : list R) (a : nat) : R :=
  t_q + alpha * Rmax (q_advantage target_qs a) (q_advantage target_next_qs a).
(** dpp.py:64-77. *)
Definition dpp_value (k : dpp_kind) (t_q : R) (target_qs : list R) (a : nat) : R := q_evaluate target_qs a + t_q - l_operator k target_qs.

(** ** Losses *)
(** chainer's Huber loss with threshold [delta]. *)
Definition huber (delta y t : R) : R :=
  let d := Rabs (y - t) in if Rle_dec d delta then / 2 * d ^ 2 else delta * (d - / 2 * delta).
Inductive accumulator := Mean | Sum.
Definition row_loss (clip_delta : bool) (y t : R) : R := if clip_delta then huber 1 y t else (y - t) ^ 2 / 2.
(** dqn.py:14-43. *)
Definition compute_value_loss (y t : list R) (clip_delta : bool) (acc : accumulator) : R :=
  let n := INR (length y) in
  if clip_delta then
    let loss_sum := fsum (zipr (huber 1) y t) in
    match acc with Mean => loss_sum / n | Sum => loss_sum end
  else
    let loss_mean := fsum (zipr (fun a b => (a - b) ^ 2) y t) / n / 2 in
    match acc with Mean => loss_mean | Sum => loss_mean * n end.
(** dqn.py:46-75. *)
Definition compute_weighted_value_loss (y t w : list R) (clip_delta : bool) (acc : accumulator) : R :=
  let losses := zipr (row_loss clip_delta) y t in
  let loss_sum := fsum (zipr Rmult losses w) in
  match acc with Mean => loss_sum / INR (length y) | Sum => loss_sum end.
(** dqn.py:344-350: the errors reported to a prioritized buffer. *)
Definition errors_out (y t : list R) : list R := zipr (fun a b => Rabs (a - b)) y t.

(** iqn.py:179-216, one predicted quantile [y] at threshold [tau] and one target. *)
Definition quantile_loss (kappa tau y t : R) : R :=
  let I_delta := if Rlt_dec 0 (t - y) then 1 else 0 in
  Rabs (tau - I_delta) * huber kappa y t.
