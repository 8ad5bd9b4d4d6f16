(** Models of the losses of REINFORCE (chainerrl/agents/reinforce.py) and A3C
    (chainerrl/agents/a3c.py) as functions of the parameters, in real arithmetic.  [theta] is the
    position on a line through parameter space, so that a derivative is one component, or any
    directional derivative, of the gradient that backward() computes. *)
From Coq Require Import Reals List Arith Bool.
From Verif Require Import Base.PyBase.
Import ListNotations.
Local Open Scope R_scope.

(** reinforce.py:142, np.cumsum(list(reversed(rewards)))[::-1]; [rewards] is r_seq[1:]. *)
Fixpoint np_cumsum (acc : R) (l : list R) : list R := match l with [] => [] | x :: l => (acc + x) :: np_cumsum (acc + x) l end.
Definition future_rewards (rewards : list R) : list R := rev (np_cumsum 0 (rev rewards)).
(** An action as REINFORCE remembers it: log probability and entropy. *)
Record taken := mk_taken { k_log_prob : R -> R; k_entropy : R -> R }.
(** reinforce.py:136-151: the loss of a batch of episodes, each given by its rewards and actions
    (Model/Reinforce.v for the assertion on their lengths). *)
Definition reinforce_episode (beta : R) (rewards : list R) (actions : list taken) (theta : R) : R :=
  fold_right Rplus 0 (map (fun z => - fst z * k_log_prob (snd z) theta - beta * k_entropy (snd z) theta) (combine (future_rewards rewards) actions)).
Definition reinforce_loss (beta : R) (batchsize : nat) (episodes : list (list R * list taken)) (theta : R) : R :=
  fold_right Rplus 0 (map (fun e => reinforce_episode beta (fst e) (snd e) theta) episodes) / INR batchsize.

(** a3c.py:155-167: what A3C remembers of a step. *)
Record a3c_step := mk_a3c_step { h_reward : R; h_value : R -> R; h_log_prob : R -> R; h_entropy : R -> R }.
Record a3c_conf := mk_a3c_conf {
  ac_gamma : R; ac_beta : R; ac_pi_coef : R; ac_v_coef : R; ac_t_max : nat; ac_keep_scale : bool; ac_normalize : bool }.
(** a3c.py:161-186 without use_average_reward: the loop over the steps in reverse; [theta0] are the
    parameters at which the advantages are computed.  The state is (R, pi_loss, v_loss). *)
Definition a3c_loop (c : a3c_conf) (theta0 : R) (x : a3c_step) (acc : R * (R -> R) * (R -> R)) : R * (R -> R) * (R -> R) :=
  let '(ret, pi_loss, v_loss) := acc in
  let ret := ret * ac_gamma c + h_reward x in
  let advantage := ret - h_value x theta0 in
  (ret, (fun theta => pi_loss theta - h_log_prob x theta * advantage - ac_beta c * h_entropy x theta), (fun theta => v_loss theta + (h_value x theta - ret) ^ 2 / 2)).
Definition a3c_losses (c : a3c_conf) (theta0 : R) (bootstrap : R) (steps : list a3c_step) : R * (R -> R) * (R -> R) :=
  fold_right (a3c_loop c theta0) (bootstrap, fun _ => 0, fun _ => 0) steps.
(** a3c.py:188-208: the coefficients and the two normalisations. *)
Definition a3c_scale (c : a3c_conf) (n : nat) (x : R) : R :=
  let x := if ac_keep_scale c && (n <? ac_t_max c) then x * (INR (ac_t_max c) / INR n) else x in
  if ac_normalize c then x / INR n else x.
Definition a3c_total (c : a3c_conf) (theta0 : R) (bootstrap : R) (steps : list a3c_step) (theta : R) : R :=
  let '(_, pi_loss, v_loss) := a3c_losses c theta0 bootstrap steps in
  a3c_scale c (length steps) (pi_loss theta * ac_pi_coef c) + a3c_scale c (length steps) (v_loss theta * ac_v_coef c).
