(** C88: the gradients that REINFORCE and A3C follow are, on average over episodes, the gradient of
    the expected return. *)
From Coq Require Import Reals List Arith Bool Lia Lra.
From Verif Require Import Base.PyBase Model.PolicyGradient Spec.SumSpec Spec.PolicyGradientSpec Proofs.PolicyGradientProofs.
Import ListNotations.
Local Open Scope nat_scope.
Local Open Scope R_scope.

(** REINFORCE, for all processes, policies, entropy weights and episode lengths: the derivative of the loss of
    an episode, averaged over the episodes with their probabilities, is minus the derivative of the expected
    sum of rewards, minus beta times that of the entropies. *)
Theorem C88_reinforce : forall St (m : mdp St), proper m -> forall pi theta0 dpi, is_policy m pi -> has_derivative pi theta0 dpi ->
  forall beta dent entropy, (forall s, derivable_pt_lim (fun t => entropy t s) theta0 (dent s)) ->
  forall n s grad, (forall e, In e (all_episodes m (pi theta0) n s) -> derivable_pt_lim (reinforce_episode beta (episode_rewards e) (episode_actions pi entropy e)) theta0 (grad e)) ->
  derivable_pt_lim (fun t => expected_return m 1 (fun _ => 0) (pi t) n s) theta0
    (- (over_episodes m (pi theta0) n s grad + beta * over_episodes m (pi theta0) n s (entropy_gradient dent))).
Proof. exact @reinforce_gradient. Qed.
(** The gradient for a batch of episodes is the average of theirs. *)
Theorem C88_batch : forall beta theta (eps : list (list R * list taken)) gs, eps <> [] -> Forall2 (fun e g => derivable_pt_lim (reinforce_episode beta (fst e) (snd e)) theta g) eps gs ->
  derivable_pt_lim (reinforce_loss beta (length eps) eps) theta (fold_right Rplus 0 gs / INR (length gs)).
Proof. exact batch_deriv. Qed.
(** A3C without discount: the same, for segments of at most n steps with any baseline [value], where the
    state after the segment counts as much as its value. *)
Theorem C88_a3c : forall St (m : mdp St), proper m -> forall pi theta0 dpi, is_policy m pi -> has_derivative pi theta0 dpi ->
  forall beta dent entropy, (forall s, derivable_pt_lim (fun t => entropy t s) theta0 (dent s)) ->
  forall value c n s grad, ac_beta c = beta -> ac_gamma c = 1 ->
  (forall e, In e (all_episodes m (pi theta0) n s) -> derivable_pt_lim (a3c_policy_loss pi entropy value theta0 c e) theta0 (grad e)) ->
  derivable_pt_lim (fun t => expected_return m 1 (value theta0) (pi t) n s) theta0
    (- (over_episodes m (pi theta0) n s grad + beta * over_episodes m (pi theta0) n s (entropy_gradient dent))).
Proof. exact @a3c_gradient. Qed.
(** A3C with any discount: every visited state contributes the derivative of its own discounted return with
    respect to the choice of the action there; the contributions themselves are not discounted. *)
Theorem C88_local : forall St (m : mdp St), proper m -> forall pi theta0 dpi, is_policy m pi -> has_derivative pi theta0 dpi ->
  forall beta dent entropy, (forall s, derivable_pt_lim (fun t => entropy t s) theta0 (dent s)) ->
  forall value c n s grad, ac_beta c = beta ->
  (forall e, In e (all_episodes m (pi theta0) n s) -> derivable_pt_lim (a3c_policy_loss pi entropy value theta0 c e) theta0 (grad e)) ->
  over_episodes m (pi theta0) n s grad =
    - (local_gradient m (ac_gamma c) (value theta0) (pi theta0) dpi n s + beta * over_episodes m (pi theta0) n s (entropy_gradient dent)).
Proof. exact @a3c_local. Qed.
(** With a discount other than 1 that is not the gradient of the expected discounted return. *)
Theorem C88_discount_refuted : forall gamma, gamma <> 1 -> exists (m : mdp nat) pi dpi c grad slope, proper m /\ is_policy m pi /\ has_derivative pi 0 dpi /\ ac_gamma c = gamma /\ ac_beta c = 0 /\
  (forall e, derivable_pt_lim (a3c_policy_loss pi (fun _ _ => 0) (fun _ _ => 0) 0 c e) 0 (grad e)) /\
  derivable_pt_lim (fun t => expected_return m gamma (fun _ => 0) (pi t) 2 0%nat) 0 slope /\ over_episodes m (pi 0) 2 0%nat grad <> - slope.
Proof. exact discount_refuted. Qed.
(** Without entropy and discount a small enough step along the average gradient increases the
    expected return, unless that gradient is 0. *)
Theorem C88_ascent : forall St (m : mdp St) pi theta0 dpi entropy value c n s grad, proper m -> is_policy m pi -> has_derivative pi theta0 dpi ->
  ac_beta c = 0 -> ac_gamma c = 1 -> (forall e, In e (all_episodes m (pi theta0) n s) -> derivable_pt_lim (a3c_policy_loss pi entropy value theta0 c e) theta0 (grad e)) ->
  over_episodes m (pi theta0) n s grad <> 0 ->
  exists r, 0 < r /\ forall lr, 0 < lr < r -> expected_return m 1 (value theta0) (pi theta0) n s < expected_return m 1 (value theta0) (pi (theta0 - lr * over_episodes m (pi theta0) n s grad)) n s.
Proof. exact @expected_ascent. Qed.
(** Both losses have a derivative for every episode. *)
Theorem C88_differentiable : forall St (m : mdp St) pi theta0 dpi entropy dent value c e beta, is_policy m pi -> has_derivative pi theta0 dpi -> (forall s, derivable_pt_lim (fun t => entropy t s) theta0 (dent s)) ->
  (exists d, derivable_pt_lim (a3c_policy_loss pi entropy value theta0 c e) theta0 d) /\ (exists d, derivable_pt_lim (reinforce_episode beta (episode_rewards e) (episode_actions pi entropy e)) theta0 d).
Proof. exact @losses_differentiable. Qed.
(** The losses of A3C in closed form: every step has the discounted sum of the rewards from there on and of the bootstrap. *)
Theorem C88_closed : forall c theta0 b steps, let '(R, pl, vl) := a3c_losses c theta0 b steps in
  R = discounted (ac_gamma c) (map h_reward steps) b /\
  (forall theta, pl theta = - sum_below (length steps) (fun k => match nth_error steps k with None => 0 | Some x =>
       h_log_prob x theta * (discounted (ac_gamma c) (map h_reward (skipn k steps)) b - h_value x theta0) + ac_beta c * h_entropy x theta end)) /\
  (forall theta, vl theta = sum_below (length steps) (fun k => match nth_error steps k with None => 0 | Some x =>
       (h_value x theta - discounted (ac_gamma c) (map h_reward (skipn k steps)) b) ^ 2 / 2 end)).
Proof. exact a3c_closed. Qed.
(** The best value of a state, for the average of its squared error, is the expected return, and no other. *)
Theorem C88_value : forall St (m : mdp St) pi entropy value theta0 c n s (p : St -> nat -> R) x, proper m -> (forall s, sum_below (n_actions m) (p s) = 1) ->
  let goal := expected_return m (ac_gamma c) (value theta0) p n s in
  let loss := fun y => over_episodes m p n s (fun e => (y - a3c_return pi entropy value theta0 c e) ^ 2 / 2) in
  loss goal <= loss x /\ (loss x = loss goal <-> x = goal).
Proof. exact @value_regression. Qed.
(** The coefficients and normalisations scale both losses by the same positive factor. *)
Theorem C88_scale : forall c theta0 b steps theta, steps <> [] -> (length steps <= ac_t_max c)%nat ->
  let '(_, pl, vl) := a3c_losses c theta0 b steps in
  let k := (if ac_keep_scale c then INR (ac_t_max c) / INR (length steps) else 1) * (if ac_normalize c then / INR (length steps) else 1) in
  0 < k /\ a3c_total c theta0 b steps theta = k * (ac_pi_coef c * pl theta + ac_v_coef c * vl theta).
Proof. exact scale_ok. Qed.
Print Assumptions C88_reinforce.
Print Assumptions C88_batch.
Print Assumptions C88_a3c.
Print Assumptions C88_local.
Print Assumptions C88_discount_refuted.
Print Assumptions C88_ascent.
Print Assumptions C88_differentiable.
Print Assumptions C88_closed.
Print Assumptions C88_value.
Print Assumptions C88_scale.

(** A process and a policy that meet the hypotheses; its four episodes and their average return. *)
Example C88_example : proper late_mdp /\ is_policy late_mdp sigmoid_policy /\ has_derivative sigmoid_policy 0 sigmoid_slope /\ length (all_episodes late_mdp (sigmoid_policy 0) 2 0%nat) = 4%nat /\
  expected_return late_mdp 1 (fun _ => 0) (sigmoid_policy 0) 2 0%nat = 1 / 2 /\ over_episodes late_mdp (sigmoid_policy 0) 2 0%nat (fun e => fold_right Rplus 0 (episode_rewards e)) = 1 / 2.
Proof.
  split; [exact late_proper|]. split; [exact sigmoid_ok|]. split; [exact sigmoid_deriv|]. split; [reflexivity|].
  unfold over_episodes, all_episodes. cbn. unfold o_prob, o_reward. cbn. rewrite exp_0. split; field.
Qed.
Example C88_returns : discounted (1 / 2) [1; 2] 4 = 3.
Proof. unfold discounted. cbn. field. Qed.
