(** C102: the gradients of DQN and ResidualDQN, and what they minimise. *)
From Coq Require Import Reals List Arith Lia Lra.
From Verif Require Import Base.PyBase Model.Distributions Model.ReplayUpdater Model.Targets Model.GradFunctions Model.Residual Spec.SumSpec Spec.TargetSpec Spec.PolicyGradientSpec Spec.BellmanSpec Spec.ResidualSpec.
From Verif Require Import Proofs.ResidualProofs.
Import ListNotations.
Local Open Scope R_scope.

(** The gradient of a batch is the derivative of its loss when the parameters in the targets move [c] times as much as those in the predictions:
    with [c = 0] the targets are constants (DQN), with [c = 1] it is the gradient of the whole loss.  This holds for clipped and squared losses, with and
    without importance weights, for sums and means, whenever the maximal next values are attained by one action only or do not count. *)
Theorem C102_gradient : forall S' (q : R -> S' -> list R) dq theta0 clip_delta c weighted acc xs,
  network_derivative q theta0 dq -> xs <> [] ->
  (forall x, In x xs -> rw_discount x * (1 - terminal_flag (rw_terminal x)) = 0 \/ clear_choice (q theta0 (rw_next x))) ->
  derivable_pt_lim (fun theta => batch_loss clip_delta weighted acc (q theta) (q (theta0 + c * (theta - theta0))) xs) theta0
    (batch_gradient clip_delta c weighted acc (q theta0) dq xs).
Proof. intros S' q dq theta0 clip_delta c weighted acc xs D. exact (batch_gradient_deriv q dq theta0 D clip_delta c weighted acc xs). Qed.
Print Assumptions C102_gradient.

(** The loss of the transitions after an action is on average half the squared Bellman error plus half the variance of the targets. *)
Theorem C102_objective : forall St (m : mdp St) gamma final B Q s a, regular m B ->
  average_loss m gamma final false Q s a = (nth a (Q s) 0 - lookahead m gamma final (fun s' => q_maximum (Q s')) s a) ^ 2 / 2 + variance m gamma final Q s a / 2.
Proof. intros St m gamma final B Q s a REG. exact (objective m gamma final B REG Q s a). Qed.
Print Assumptions C102_objective.

(** Small losses mean nearly optimal action values. *)
Theorem C102_bound : forall St (m : mdp St) gamma final B v Q b eps s a, 0 <= gamma < 1 -> regular m B -> optimal_value m gamma final v -> table m Q -> bounded m b Q -> 0 <= eps ->
  (forall s a, (a < n_actions m)%nat -> average_loss m gamma final false Q s a <= eps ^ 2 / 2) -> (a < n_actions m)%nat ->
  Rabs (nth a (Q s) 0 - lookahead m gamma final v s a) <= eps / (1 - gamma).
Proof. intros St m gamma final B v Q b eps s a G REG. exact (residual_bound m gamma final B G REG v Q b eps s a). Qed.
Print Assumptions C102_bound.

(** In deterministic processes the losses are zero exactly for the optimal action values. *)
Theorem C102_deterministic : forall St (m : mdp St) gamma final B v Q b, 0 <= gamma < 1 -> regular m B -> deterministic m -> optimal_value m gamma final v -> table m Q -> bounded m b Q ->
  ((forall s a, (a < n_actions m)%nat -> average_loss m gamma final false Q s a = 0) <-> (forall s a, (a < n_actions m)%nat -> nth a (Q s) 0 = lookahead m gamma final v s a)).
Proof. intros St m gamma final B v Q b G REG. exact (zero_loss m gamma final B G REG v Q b). Qed.
Print Assumptions C102_deterministic.

(** Full statement: ResidualDQN has the optimal action values as a resting point.  Refuted when transitions are random: for every scale of the
    gradients of targets but 0, the average gradient at the optimal values is not zero in some direction, and some other values have a smaller loss. *)
Theorem C102_stochastic_refuted : forall gamma, 0 < gamma < 1 -> let optimal := chance_values (gamma / 2) 1 0 in
  regular chance_mdp 1 /\ table chance_mdp optimal /\ (forall s, backup chance_mdp gamma 0%nat (fun _ => q_maximum) optimal s = optimal s) /\
  (exists Q, table chance_mdp Q /\ sum_below 3 (fun s => average_loss chance_mdp gamma 0%nat false Q s 0) < sum_below 3 (fun s => average_loss chance_mdp gamma 0%nat false optimal s 0)) /\
  forall c, c <> 0 -> sum_below 3 (fun s => average_gradient chance_mdp gamma 0%nat false c optimal (chance_values 0 1 0) s 0) <> 0.
Proof. exact chance. Qed.
Print Assumptions C102_stochastic_refuted.

(** DQN with squared losses rests at the optimal values, whatever the process and the network. *)
Theorem C102_semigradient : forall St (m : mdp St) gamma final B Q dQ s a, regular m B -> (a < n_actions m)%nat ->
  nth a (Q s) 0 = lookahead m gamma final (fun s' => q_maximum (Q s')) s a -> average_gradient m gamma final false 0 Q dQ s a = 0.
Proof. intros St m gamma final B Q dQ s a REG. exact (slope_average m gamma final B REG Q dQ s a). Qed.
Print Assumptions C102_semigradient.

(** DQN with clipped losses, its default, also does if no target is more than 1 away. *)
Theorem C102_clipped : forall St (m : mdp St) gamma final B Q dQ s a, regular m B -> (a < n_actions m)%nat ->
  nth a (Q s) 0 = lookahead m gamma final (fun s' => q_maximum (Q s')) s a ->
  (forall z, In z (outcomes m s a) -> Rabs (nth a (Q s) 0 - target Q (outcome_row gamma final s a z)) <= 1) ->
  average_gradient m gamma final true 0 Q dQ s a = 0.
Proof. intros St m gamma final B Q dQ s a REG. exact (clipped_average m gamma final B REG Q dQ s a). Qed.
Print Assumptions C102_clipped.

(** Full statement: it always does.  Refuted by rare large rewards: at the true values the average gradient is 1/2, so the learned values are pulled down. *)
Theorem C102_clipped_refuted : let optimal := fun _ : nat => [1] in
  regular lottery_mdp 4 /\ table lottery_mdp optimal /\ (forall s, backup lottery_mdp (1 / 2) 0%nat (fun _ => q_maximum) optimal s = optimal s) /\
  forall s, average_gradient lottery_mdp (1 / 2) 0%nat true 0 optimal (fun _ => [1]) s 0 = 1 / 2.
Proof. exact lottery. Qed.
Print Assumptions C102_clipped_refuted.

(** Non-vacuity: two actions whose values are theta and 2 theta, and a step that does not end. *)
Definition lines (theta : R) (s : nat) : list R := [theta; 2 * theta].
Example C102_lines : network_derivative lines 1 (fun _ => [1; 2]) /\ clear_choice (lines 1 0%nat) /\
  batch_gradient false 1 false Mean (lines 1) (fun _ => [1; 2]) [mk_row 0%nat 0 0 1%nat false (1 / 2) 1] = 0 /\
  batch_gradient false (1 / 2) false Mean (lines 1) (fun _ => [1; 2]) [mk_row 0%nat 0 3 1%nat false (1 / 2) 1] = - (3 / 2).
Proof.
  assert (GR : forall s, q_greedy (lines 1 s) = 1%nat). { intros s. unfold lines, q_greedy. cbn. destruct (Rlt_dec _ _); [reflexivity|lra]. }
  split; [|split; [|split]].
  - intros s. split; [reflexivity|]. intros [|[|[|a]]]; cbn.
    + apply derivable_pt_lim_id.
    + enough (W : derivable_pt_lim (fun theta => 2 * theta) 1 (2 * 1)) by (rewrite Rmult_1_r in W; exact W). exact (derivable_pt_lim_scal id 2 1 1 (derivable_pt_lim_id 1)).
    + exact (derivable_pt_lim_const 0 1).
    + exact (derivable_pt_lim_const 0 1).
  - split; [discriminate|]. intros a Ha N. rewrite GR in N. cbn in Ha. assert (a = 0%nat) by lia. subst. unfold q_maximum. rewrite GR. cbn. lra.
  - unfold batch_gradient, row_gradient, target_backward, predicted, target, td_row, q_maximum. cbn [map rw_state rw_action rw_reward rw_next rw_terminal rw_discount rw_weight]. rewrite GR. unfold lines. cbn. lra.
  - unfold batch_gradient, row_gradient, target_backward, predicted, target, td_row, q_maximum. cbn [map rw_state rw_action rw_reward rw_next rw_terminal rw_discount rw_weight]. rewrite GR. unfold lines. cbn. lra.
Qed.
