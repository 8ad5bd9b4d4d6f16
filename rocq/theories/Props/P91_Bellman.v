(** C91: the targets of the value-learning agents have the right fixed points, and repeated exact fitting
    converges to them. *)
From Coq Require Import Reals List Arith Bool Lia Lra.
From Verif Require Import Base.PyBase Model.Distributions Model.Targets Spec.SumSpec Spec.PolicyGradientSpec Spec.SurrogateSpec Spec.BellmanSpec Proofs.BellmanProofs.
Import ListNotations.
Local Open Scope nat_scope.
Local Open Scope R_scope.

(** The value that best fits the targets of all outcomes of an action, for the squared loss of the
    agents, is their average, and no other. *)
Theorem C91_regression : forall St (m : mdp St) gamma final b, regular m b -> forall v s a y,
  let loss := fun y => total_of (fun z => o_prob z * row_loss false y (td_row (o_reward z) gamma (ended z) (v (arrives final z)))) (outcomes m s a) in
  loss (lookahead m gamma final v s a) <= loss y /\ (loss y = loss (lookahead m gamma final v s a) <-> y = lookahead m gamma final v s a).
Proof. exact @regression. Qed.
(** If states are worth something that moves no more than their action values, one round of fitting brings two tables
    closer by the factor gamma, *)
Theorem C91_contraction : forall St (m : mdp St) gamma final b, 0 <= gamma < 1 -> regular m b ->
  forall value Q Q' d, (forall s, nonexpansive (n_actions m) (value s)) -> table m Q -> table m Q' -> within m d Q Q' ->
  within m (gamma * d) (backup m gamma final value Q) (backup m gamma final value Q').
Proof. exact @contraction. Qed.
(** there is a bounded table that fits its own targets, *)
Theorem C91_exists : forall St (m : mdp St) gamma final b, 0 <= gamma < 1 -> regular m b ->
  forall value c, (forall s, nonexpansive (n_actions m) (value s)) -> (forall s, Rabs (value s (repeat 0 (n_actions m))) <= c) ->
  exists Q b', table m Q /\ bounded m b' Q /\ forall s, backup m gamma final value Q s = Q s.
Proof. exact @fixpoint_exists. Qed.
(** only one, *)
Theorem C91_unique : forall St (m : mdp St) gamma final b, 0 <= gamma < 1 -> regular m b ->
  forall value Q Q' d, (forall s, nonexpansive (n_actions m) (value s)) -> table m Q -> table m Q' -> (forall s, backup m gamma final value Q s = Q s) -> (forall s, backup m gamma final value Q' s = Q' s) ->
  within m d Q Q' -> forall s, Q s = Q' s.
Proof. exact @fixpoint_unique. Qed.
(** and all bounded tables converge to it with rate gamma. *)
Theorem C91_converges : forall St (m : mdp St) gamma final b, 0 <= gamma < 1 -> regular m b ->
  forall value Q Qs d k, (forall s, nonexpansive (n_actions m) (value s)) -> table m Q -> table m Qs -> (forall s, backup m gamma final value Qs s = Qs s) -> within m d Q Qs ->
  within m (gamma ^ k * d) (iterate (backup m gamma final value) k Q) Qs.
Proof. exact @to_fixpoint. Qed.
(** That covers the maximum (DQN, and DPPGreedy's operator), the log-sum-exp of DPPL and averages under any policy (SARSA); *)
Theorem C91_nonexpansive : forall n, (0 < n)%nat ->
  nonexpansive n q_maximum /\ nonexpansive n (l_operator DPPGreedy) /\ (forall eta, eta <> 0 -> nonexpansive n (l_operator (DPPL eta))) /\
  (forall p : nat -> R, (forall a, 0 <= p a) -> sum_below n p = 1 -> nonexpansive n (policy_average p)).
Proof.
  exact (fun n Hn => conj (max_nonexpansive n Hn) (conj (max_nonexpansive n Hn) (conj (fun eta => lse_nonexpansive n eta Hn) (average_nonexpansive n)))).
Qed.
(** the Boltzmann average of DPP can move more than the action values. *)
Theorem C91_boltzmann_refuted : ~ nonexpansive 2 (l_operator (DPP 1)).
Proof. exact boltzmann_expands. Qed.
(** DQN: a table that fits its own targets gives the optimal values: they satisfy the optimality equation, which has exactly one
    bounded solution, *)
Theorem C91_dqn : forall St (m : mdp St) gamma final b, 0 <= gamma < 1 -> regular m b ->
  (exists v, optimal_value m gamma final v) /\ (forall v v', optimal_value m gamma final v -> optimal_value m gamma final v' -> forall s, v s = v' s) /\
  forall Q b', table m Q -> bounded m b' Q -> (forall s, backup m gamma final (fun _ => q_maximum) Q s = Q s) ->
  optimal_value m gamma final (fun s => q_maximum (Q s)) /\ forall s a, (a < n_actions m)%nat -> nth a (Q s) 0 = lookahead m gamma final (fun s => q_maximum (Q s)) s a.
Proof. exact (fun St m gamma final b G REG => conj (optimal_exists m gamma final b G REG) (conj (optimal_unique m gamma final b G REG) (fixpoint_optimal m gamma final b REG))). Qed.
(** no policy has a larger expected return than the optimal value (up to what the values after k steps may contribute), *)
Theorem C91_upper : forall St (m : mdp St) gamma final b, 0 <= gamma < 1 -> regular m b ->
  forall v w p d k s, optimal_value m gamma final v -> (forall s a, 0 <= p s a) -> (forall s, sum_below (n_actions m) (p s) = 1) -> (forall s, w s <= v s + d) -> 0 <= d ->
  expected_return m gamma w p k s <= v s + gamma ^ k * d.
Proof. exact @policy_below. Qed.
(** and the greedy policy of a table within eps of the optimal action values loses at most 2 eps / (1 - gamma): with eps = 0 it is optimal. *)
Theorem C91_greedy : forall St (m : mdp St) gamma final b, 0 <= gamma < 1 -> regular m b ->
  forall v Q eps w d k s, optimal_value m gamma final v -> table m Q -> 0 <= eps -> 0 <= d -> (forall s a, (a < n_actions m)%nat -> Rabs (nth a (Q s) 0 - lookahead m gamma final v s a) <= eps) -> (forall s, v s - d <= w s) ->
  v s - 2 * eps / (1 - gamma) - gamma ^ k * d <= expected_return m gamma w (greedy_policy Q) k s.
Proof. exact @greedy_near. Qed.
(** SARSA: with an explorer that follows the policy p, the fixed point is the expected return of p. *)
Theorem C91_sarsa : forall St (m : mdp St) gamma final b, 0 <= gamma < 1 -> regular m b ->
  forall Q b' p w d k s, table m Q -> bounded m b' Q -> (forall s a, 0 <= p s a) -> (forall s, sum_below (n_actions m) (p s) = 1) -> (forall s, backup m gamma final (fun s => policy_average (p s)) Q s = Q s) ->
  (forall s, Rabs (w s - policy_average (p s) (Q s)) <= d) -> Rabs (expected_return m gamma w p k s - policy_average (p s) (Q s)) <= gamma ^ k * d.
Proof. exact @sarsa_value. Qed.
(** Advantage learning and persistent advantage learning preserve optimality: from every bounded table the maxima converge to the optimal values;
    and they increase the gaps: those of the other actions are in the end no smaller than the optimal ones. *)
Theorem C91_advantage_learning : forall St (m : mdp St) gamma final b, 0 <= gamma < 1 -> regular m b ->
  forall v alpha Q b', optimal_value m gamma final v -> 0 <= alpha < 1 -> table m Q -> bounded m b' Q ->
  forall T, T = al_backup m gamma final alpha \/ T = pal_backup m gamma final alpha ->
  (forall s, Un_cv (fun k => q_maximum (iterate T k Q s)) (v s)) /\
  (forall s a eps, (a < n_actions m)%nat -> 0 < eps -> exists K, forall k, (K <= k)%nat ->
     v s - lookahead m gamma final v s a - eps <= q_maximum (iterate T k Q s) - nth a (iterate T k Q s) 0).
Proof. exact @advantage_learning. Qed.
Print Assumptions C91_regression.
Print Assumptions C91_contraction.
Print Assumptions C91_exists.
Print Assumptions C91_unique.
Print Assumptions C91_converges.
Print Assumptions C91_nonexpansive.
Print Assumptions C91_boltzmann_refuted.
Print Assumptions C91_dqn.
Print Assumptions C91_upper.
Print Assumptions C91_greedy.
Print Assumptions C91_sarsa.
Print Assumptions C91_advantage_learning.

(** A process that meets the hypotheses, and its optimal values. *)
Example C91_example : regular gate_mdp 1 /\ optimal_value gate_mdp (1 / 2) 0%nat (fun s => match s with O => 1 / 2 | _ => 1 end).
Proof.
  split; [split; [intros [|s] [|a]; cbn; unfold o_prob; cbn; ring|split; [cbn; lia|]]|split].
  - intros [|s] [|a] z Hz; cbn in Hz; destruct Hz as [<-|[]]; unfold o_prob, o_reward; cbn; rewrite ?Rabs_R0, ?Rabs_R1; lra.
  - exists 1. intros [|s]; rewrite Rabs_pos_eq; lra.
  - intros [|s]; (split; [intros [|a] _|exists 0%nat; split; [cbn; lia|]]); unfold lookahead; cbn; unfold o_prob, o_reward, td_row; cbn; lra.
Qed.
