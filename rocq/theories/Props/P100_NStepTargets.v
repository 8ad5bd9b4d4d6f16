(** C100: what value learning with n-step targets learns, and where exploration biases it. *)
From Coq Require Import Reals List Arith Bool Lia Lra.
From Verif Require Import Base.PyBase Model.Distributions Model.ReplayUpdater Model.Targets Spec.SumSpec Spec.PolicyGradientSpec Spec.BellmanSpec Spec.NStepLearningSpec Proofs.PolicyGradientProofs Proofs.BellmanProofs Proofs.NStepLearningProofs.
Import ListNotations.
Local Open Scope nat_scope.
Local Open Scope R_scope.

(** For every window of an action and at most k further steps, [batch_experiences] makes a batch, and the targets of the agents bootstrap
    after k + 1 steps exactly if the episode has not ended. *)
Theorem C100_windows : forall St (m : mdp St) gamma final p k s a e, In e (first_steps m p k s a) ->
  exists b, batch_experiences (fun s => s) gamma [window final e] = Ok b /\
  forall v, td_targets v b = [td_row (window_reward gamma e) (gamma ^ S k) (match e_last e with None => true | Some _ => false end) (v (match e_last e with None => final | Some s' => s' end))].
Proof. exact @window_batch. Qed.
Print Assumptions C100_windows.
(** On average they are the value of the action if the policy is followed for k steps and states are then worth what the agent says: *)
Theorem C100_average : forall St (m : mdp St) gamma final p, proper m -> is_choice m p ->
  forall k v s a, total_of (fun e => e_prob e * window_target gamma final v e) (first_steps m p k s a) = lookahead m gamma final (expected_return m gamma v p k) s a.
Proof. exact @average. Qed.
Print Assumptions C100_average.
(** they are the one-step targets of the process in which an action is followed by k steps of the policy. *)
Theorem C100_process : forall St (m : mdp St) gamma final p B, 0 <= gamma < 1 -> regular m B -> is_choice m p ->
  forall k, regular (n_step_process m gamma p k) (INR (S k) * B) /\
  forall value Q s, n_step_backup m gamma final p value k Q s = backup (n_step_process m gamma p k) (gamma ^ S k) final value Q s.
Proof. exact (fun St m gamma final p B G REG PC k => conj (process_regular m gamma p (proj1 REG) PC B G REG k) (fun value => as_process m gamma final p value k)). Qed.
Print Assumptions C100_process.
(** So fitting them contracts, by gamma^(k+1), to a unique bounded table. *)
Theorem C100_contraction : forall St (m : mdp St) gamma final p B, 0 <= gamma < 1 -> regular m B -> is_choice m p ->
  forall value k c, (forall s, nonexpansive (n_actions m) (value s)) -> (forall s, Rabs (value s (repeat 0 (n_actions m))) <= c) ->
  exists Qs b, table m Qs /\ bounded m b Qs /\ (forall s, n_step_backup m gamma final p value k Qs s = Qs s) /\
  (forall Q b', table m Q -> bounded m b' Q -> (forall s, n_step_backup m gamma final p value k Q s = Q s) -> forall s, Q s = Qs s) /\
  forall Q d j, table m Q -> within m d Q Qs -> within m ((gamma ^ S k) ^ j * d) (iterate (n_step_backup m gamma final p value k) j Q) Qs.
Proof.
  exact (fun St m gamma final p B G REG PC value k c NE C =>
    match n_exists m gamma final p (proj1 REG) PC B G REG value k c NE C with
    | ex_intro _ Qs (ex_intro _ b (conj T (conj BD F))) =>
        ex_intro _ Qs (ex_intro _ b (conj T (conj BD (conj F (conj
          (fun Q b' TQ BQ FQ => n_unique m gamma final p (proj1 REG) PC B G REG value k Q Qs (b' + b) NE TQ T FQ F (bounded_within m b' b Q Qs BQ BD))
          (fun Q d j TQ W => n_converges m gamma final p (proj1 REG) PC B G REG value k Q Qs d j NE TQ T F W))))))
    end).
Qed.
Print Assumptions C100_contraction.
(** DQN's table is then between the action values of the policy and the optimal ones, *)
Theorem C100_between : forall St (m : mdp St) gamma final p B, 0 <= gamma < 1 -> regular m B -> is_choice m p ->
  forall v Qp bp Q b k s a, optimal_value m gamma final v ->
  table m Qp -> bounded m bp Qp -> (forall s, backup m gamma final (fun s => policy_average (p s)) Qp s = Qp s) ->
  table m Q -> bounded m b Q -> (forall s, n_step_backup m gamma final p (fun _ => q_maximum) k Q s = Q s) -> (a < n_actions m)%nat ->
  nth a (Qp s) 0 <= nth a (Q s) 0 <= lookahead m gamma final v s a.
Proof.
  exact (fun St m gamma final p B G REG PC v Qp bp Q b k s a OV TP BP FP TQ BQ F Ha =>
    conj (above_policy m gamma final p (proj1 REG) PC B G REG Qp bp Q b k s a TP BP FP TQ BQ F Ha) (below_optimal m gamma final p (proj1 REG) PC B G REG v Q b k s a OV TQ BQ F Ha)).
Qed.
Print Assumptions C100_between.
(** and if the policy loses at most eps with each choice, it is within eps (gamma + ... + gamma^k) / (1 - gamma^(k+1)) of the optimal ones. *)
Theorem C100_bias : forall St (m : mdp St) gamma final p B, 0 <= gamma < 1 -> regular m B -> is_choice m p ->
  forall v Q b k eps s a, optimal_value m gamma final v -> table m Q -> bounded m b Q -> (forall s, n_step_backup m gamma final p (fun _ => q_maximum) k Q s = Q s) -> 0 <= eps ->
  (forall s, v s - eps <= sum_below (n_actions m) (fun a => p s a * lookahead m gamma final v s a)) -> (a < n_actions m)%nat ->
  lookahead m gamma final v s a - eps * later gamma k / (1 - gamma ^ S k) <= nth a (Q s) 0.
Proof. exact (fun St m gamma final p B G REG PC => near_optimal m gamma final p (proj1 REG) PC B G REG). Qed.
Print Assumptions C100_bias.
(** One-step targets, and those of optimal policies, have no bias: *)
Theorem C100_optimal : forall St (m : mdp St) gamma final p B, 0 <= gamma < 1 -> regular m B -> is_choice m p ->
  forall v Q b k s a, optimal_value m gamma final v -> table m Q -> bounded m b Q -> (forall s, n_step_backup m gamma final p (fun _ => q_maximum) k Q s = Q s) ->
  (k = 0%nat \/ forall s, v s = sum_below (n_actions m) (fun a => p s a * lookahead m gamma final v s a)) -> (a < n_actions m)%nat ->
  nth a (Q s) 0 = lookahead m gamma final v s a.
Proof. exact optimal_policy. Qed.
Print Assumptions C100_optimal.
(** nor have those of SARSA, if its explorer follows the policy. *)
Theorem C100_sarsa : forall St (m : mdp St) gamma final p B, 0 <= gamma < 1 -> regular m B -> is_choice m p ->
  forall Q b k, table m Q -> bounded m b Q ->
  ((forall s, n_step_backup m gamma final p (fun s => policy_average (p s)) k Q s = Q s) <-> (forall s, backup m gamma final (fun s => policy_average (p s)) Q s = Q s)).
Proof. exact (fun St m gamma final p B G REG PC => sarsa_fixed m gamma final p (proj1 REG) PC B G REG). Qed.
Print Assumptions C100_sarsa.
(** Refuted: DQN with n-step targets learns the optimal policy whatever policy collects the experience.  With two steps and uniform exploration
    it prefers the worse of two actions, because the second choice after the better one is not its own. *)
Theorem C100_exploration_refuted : exists v, regular spoilt_mdp 1 /\ is_choice spoilt_mdp even_policy /\ optimal_value spoilt_mdp (1 / 2) 0%nat v /\
  (forall s a, 0 < even_policy s a) /\
  forall Q, table spoilt_mdp Q -> (forall s, n_step_backup spoilt_mdp (1 / 2) 0%nat even_policy (fun _ => q_maximum) 1 Q s = Q s) ->
  q_greedy (Q 0%nat) = 1%nat /\ lookahead spoilt_mdp (1 / 2) 0%nat v 0%nat 1%nat < v 0%nat /\ v 0%nat = lookahead spoilt_mdp (1 / 2) 0%nat v 0%nat 0%nat.
Proof. exact spoilt. Qed.
Print Assumptions C100_exploration_refuted.

(** The hypotheses can be met: a process, a policy, the optimal values, and the tables exist. *)
Example C100_example : regular spoilt_mdp 1 /\ is_choice spoilt_mdp even_policy /\ length (first_steps spoilt_mdp even_policy 1 0%nat 0%nat) = 2%nat /\ first_steps spoilt_mdp even_policy 1 0%nat 1%nat = [mk_episode (1 * 1) [(0%nat, 1%nat, 3 / 8)] None].
Proof. exact (conj spoilt_regular (conj even_choice (conj eq_refl eq_refl))). Qed.
