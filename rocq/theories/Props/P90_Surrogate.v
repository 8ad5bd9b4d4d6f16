(** C90: the surrogate objectives of PPO and TRPO start in the direction of the policy gradient, and the
    divergence that limits TRPO's step measures the change of the policy. *)
From Coq Require Import Reals List Arith Bool Lia Lra.
From Verif Require Import Base.PyBase Model.Distributions Model.PPOLoss Model.PolicyGradient Model.Surrogate Spec.SumSpec Spec.PolicyGradientSpec Spec.SurrogateSpec Proofs.PolicyGradientProofs Proofs.SurrogateProofs.
Import ListNotations.
Local Open Scope nat_scope.
Local Open Scope R_scope.

(** PPO, for all processes, policies, clipping ranges, entropy weights, discounts and lambdas: the objective of an episode,
    times its length, has on average the derivative, at the parameters that collected the episodes, of minus the returns of the
    visited states with respect to the choices made there, if lambda is 1 or the values satisfy the Bellman equation.
    Without discount that is minus the derivative of the expected return. *)
Theorem C90_ppo : forall St (pi : R -> St -> nat -> R) entropy value (m : mdp St) theta0 dpi, is_policy m pi -> has_derivative pi theta0 dpi ->
  forall dent, (forall s, derivable_pt_lim (fun t => entropy t s) theta0 (dent s)) -> proper m ->
  forall eps_clip c_e gamma lambd final n s grad, 0 < eps_clip -> lambd = 1 \/ bellman m gamma (pi theta0) (value theta0) ->
  (forall e, In e (all_episodes m (pi theta0) n s) -> derivable_pt_lim (fun t => size [logged final e] * ppo_objective pi entropy value eps_clip c_e gamma lambd theta0 [logged final e] t) theta0 (grad e)) ->
  over_episodes m (pi theta0) n s grad = - (local_gradient m gamma (value theta0) (pi theta0) dpi n s + c_e * over_episodes m (pi theta0) n s (entropy_gradient dent)) /\
  (gamma = 1 -> derivable_pt_lim (fun t => expected_return m 1 (value theta0) (pi t) n s) theta0
     (- (over_episodes m (pi theta0) n s grad + c_e * over_episodes m (pi theta0) n s (entropy_gradient dent)))).
Proof. exact @ppo_gradient. Qed.
(** TRPO's gain: the same with the opposite sign, as it is maximised. *)
Theorem C90_trpo : forall St (pi : R -> St -> nat -> R) entropy value (m : mdp St) theta0 dpi, is_policy m pi -> has_derivative pi theta0 dpi ->
  forall dent, (forall s, derivable_pt_lim (fun t => entropy t s) theta0 (dent s)) -> proper m ->
  forall c_e gamma lambd final n s grad, lambd = 1 \/ bellman m gamma (pi theta0) (value theta0) ->
  (forall e, In e (all_episodes m (pi theta0) n s) -> derivable_pt_lim (fun t => size [logged final e] * trpo_objective pi entropy value c_e gamma lambd theta0 [logged final e] t) theta0 (grad e)) ->
  over_episodes m (pi theta0) n s grad = local_gradient m gamma (value theta0) (pi theta0) dpi n s + c_e * over_episodes m (pi theta0) n s (entropy_gradient dent) /\
  (gamma = 1 -> derivable_pt_lim (fun t => expected_return m 1 (value theta0) (pi t) n s) theta0
     (over_episodes m (pi theta0) n s grad - c_e * over_episodes m (pi theta0) n s (entropy_gradient dent))).
Proof. exact @trpo_gradient. Qed.
(** The objectives of several episodes, times the number of transitions, are the sums of those of the episodes. *)
Theorem C90_episodes : forall St (pi : R -> St -> nat -> R) entropy value eps_clip c_e gamma lambd theta0 eps t,
  size eps * ppo_objective pi entropy value eps_clip c_e gamma lambd theta0 eps t = total_of (fun ep => size [ep] * ppo_objective pi entropy value eps_clip c_e gamma lambd theta0 [ep] t) eps /\
  size eps * trpo_objective pi entropy value c_e gamma lambd theta0 eps t = total_of (fun ep => size [ep] * trpo_objective pi entropy value c_e gamma lambd theta0 [ep] t) eps.
Proof. exact @objectives_by_episode. Qed.
(** Both objectives have derivatives at the old parameters for every episode: neither the clip nor the minimum
    has a corner there. *)
Theorem C90_differentiable : forall St (pi : R -> St -> nat -> R) entropy value (m : mdp St) theta0 dpi dent eps_clip c_e gamma lambd final e, is_policy m pi -> has_derivative pi theta0 dpi ->
  (forall s, derivable_pt_lim (fun t => entropy t s) theta0 (dent s)) -> 0 < eps_clip ->
  exists d, derivable_pt_lim (fun t => size [logged final e] * ppo_objective pi entropy value eps_clip c_e gamma lambd theta0 [logged final e] t) theta0 (- d) /\
    derivable_pt_lim (fun t => size [logged final e] * trpo_objective pi entropy value c_e gamma lambd theta0 [logged final e] t) theta0 d.
Proof. exact @differentiable. Qed.
(** With lambda other than 1 and values that do not satisfy the Bellman equation, the direction can be another. *)
Theorem C90_inexact_values_refuted : forall lambd, lambd <> 1 -> exists (m : mdp nat) pi dpi grad slope, proper m /\ is_policy m pi /\ has_derivative pi 0 dpi /\
  (forall eps_clip final e, 0 < eps_clip -> derivable_pt_lim (fun t => size [logged final e] * ppo_objective pi (fun _ _ => 0) (fun _ _ => 0) eps_clip 0 1 lambd 0 [logged final e] t) 0 (grad e)) /\
  derivable_pt_lim (fun t => expected_return m 1 (fun _ => 0) (pi t) 2 0%nat) 0 slope /\ over_episodes m (pi 0) 2 0%nat grad <> - slope.
Proof. exact biased_direction. Qed.
(** Weighting with the ratio of probabilities turns averages over the actions of the old policy into those over the new one. *)
Theorem C90_importance : forall n (p q A : nat -> R), (forall a, 0 < p a) -> (forall a, 0 < q a) ->
  sum_below n (fun a => p a * (prob_ratio (ln (q a)) (ln (p a)) * A a)) = sum_below n (fun a => q a * A a).
Proof. exact importance. Qed.
(** TRPO's divergence is never negative, and 0 exactly if the policy is unchanged in all states of the dataset. *)
Theorem C90_divergence : forall St (m : mdp St) pi theta0 states theta, is_policy m pi -> states <> [] ->
  0 <= trpo_kl (n_actions m) pi theta0 states theta /\
  (trpo_kl (n_actions m) pi theta0 states theta = 0 <-> forall s a, In s states -> (a < n_actions m)%nat -> pi theta s a = pi theta0 s a).
Proof. exact @trpo_kl_zero. Qed.
(** It has derivative 0 at the old parameters, *)
Theorem C90_stationary : forall St (m : mdp St) pi theta0 dpi states, is_policy m pi -> has_derivative pi theta0 dpi -> derivable_pt_lim (trpo_kl (n_actions m) pi theta0 states) theta0 0.
Proof. exact @kl_stationary. Qed.
(** and its second derivative there is the Fisher information: the average square of the derivative of the log probability. *)
Theorem C90_fisher : forall St (m : mdp St) pi theta0 (dpi : R -> St -> nat -> R) ddpi states, is_policy m pi -> (forall theta, has_derivative pi theta (dpi theta)) -> has_derivative dpi theta0 ddpi ->
  exists slope, (forall theta, derivable_pt_lim (trpo_kl (n_actions m) pi theta0 states) theta (slope theta)) /\
  derivable_pt_lim slope theta0 (fmean (fun s => sum_below (n_actions m) (fun a => pi theta0 s a * (dpi theta0 s a / pi theta0 s a) ^ 2)) states).
Proof. exact @kl_fisher. Qed.
(** The data: the advantage of a transition is the sum of the errors from there to the end of the episode, each weighted
    once more by gamma lambda, and the target for its value is the value plus the advantage. *)
Theorem C90_advantages : forall St gamma lambd (ep : list (evaluated St)) k y, nth_error ep k = Some y ->
  exists adv, nth_error (gae gamma lambd ep) k = Some (y, adv, y_v y + adv) /\
    adv = sum_below (length ep - k) (fun i => (gamma * lambd) ^ i * match nth_error ep (k + i) with Some z => td_error gamma z | None => 0 end).
Proof. exact @gae_closed. Qed.
Print Assumptions C90_advantages.
Print Assumptions C90_ppo.
Print Assumptions C90_trpo.
Print Assumptions C90_episodes.
Print Assumptions C90_differentiable.
Print Assumptions C90_inexact_values_refuted.
Print Assumptions C90_importance.
Print Assumptions C90_divergence.
Print Assumptions C90_stationary.
Print Assumptions C90_fisher.

(** Values of a process that satisfy the Bellman equation, and the transitions of an episode that ends. *)
Example C90_bellman : bellman gate_mdp 1 (sigmoid_policy 0) (fun s => match s with O => 1 / 2 | _ => 1 end).
Proof. intros [|s]; cbn; unfold o_prob, o_reward; cbn; rewrite exp_0; field. Qed.
Example C90_logged : proper gate_mdp /\ logged 7%nat (mk_episode 1 [(0%nat, 0%nat, 0); (1%nat, 1%nat, 1)] None) = [mk_transition 0%nat 0%nat 0 1%nat true; mk_transition 1%nat 1%nat 1 7%nat false].
Proof. split; [exact gate_proper|reflexivity]. Qed.
