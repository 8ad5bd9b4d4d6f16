(** C95: ACER learns the values of its policy from episodes of any other policy. *)
From Coq Require Import Reals List Arith Bool Lia Lra.
From Verif Require Import Base.PyBase Model.Acer Spec.SumSpec Spec.PolicyGradientSpec Spec.BellmanSpec Spec.SoftSpec Spec.RetraceSpec Proofs.RetraceProofs.
Import ListNotations.
Local Open Scope nat_scope.
Local Open Scope R_scope.

(** A policy has exactly one family of action values, and they are those of its expected returns: whatever the
    state after [k] steps is taken to be worth matters less and less. *)
Theorem C95_values : forall St (m : mdp St) gamma final b, 0 <= gamma < 1 -> regular m b -> forall p, distribution m p ->
  (exists q, action_values m gamma final p q) /\
  (forall q q', action_values m gamma final p q -> action_values m gamma final p q' -> forall s a, (a < n_actions m)%nat -> q s a = q' s a) /\
  forall q w d k s, action_values m gamma final p q -> (forall s, Rabs (w s - state_value m p q s) <= d) ->
    Rabs (expected_return m gamma w p k s - state_value m p q s) <= gamma ^ k * d.
Proof.
  exact (fun St m gamma final b G REG p D => conj (values_exist m gamma final b G REG p D)
    (conj (fun q q' => values_unique m gamma final b G REG p q q' D) (fun q w d k s => values_return m gamma final b G REG p q w d k s D))).
Qed.
(** The episodes that are averaged over have total probability 1. *)
Theorem C95_episodes : forall St (m : mdp St) b mu k s a, regular m b -> distribution m mu -> total_of e_prob (episodes_from m mu k s a) = 1.
Proof. exact (fun St m b mu k s a REG => episodes_one m b REG mu k s a). Qed.
(** The values of the policy are a fixed point of the average targets, whatever policy the episodes followed and wherever they were
    cut: even if it never takes some of the actions of the policy. *)
Theorem C95_fixed_point : forall St (m : mdp St) gamma final b, regular m b -> forall p mu q k s a, distribution m p -> distribution m mu ->
  action_values m gamma final p q -> (a < n_actions m)%nat ->
  retrace m gamma p mu q k s a = q s a /\ untruncated m gamma p mu q k s a = q s a.
Proof. exact (fun St m gamma final b REG p mu q k s a => fixed m gamma final b REG p mu q k s a). Qed.
(** One exact fit to the average targets shrinks the largest error by the discount factor, *)
Theorem C95_contracts : forall St (m : mdp St) gamma final b, 0 <= gamma < 1 -> regular m b -> forall p mu q qp d k, distribution m p -> distribution m mu ->
  action_values m gamma final p qp -> apart m d q qp -> apart m (gamma * d) (retrace m gamma p mu q k) qp.
Proof. exact @contracts. Qed.
(** and repeated fits, to episodes of different behaviours and lengths, converge to the values of the policy. *)
Theorem C95_converges : forall St (m : mdp St) gamma final b, 0 <= gamma < 1 -> regular m b -> forall p qp rounds q d, distribution m p -> action_values m gamma final p qp ->
  (forall mu k, In (mu, k) rounds -> distribution m mu) -> apart m d q qp ->
  apart m (gamma ^ length rounds * d) (fitted m gamma p rounds q) qp.
Proof. exact @fitted_rate. Qed.
(** The truncation of the weights is needed for this: the average of the targets without it, [Q_opc], can be further from the
    values than what it started from. *)
Theorem C95_untruncated_refuted : forall gamma, 1 / 2 <= gamma < 1 -> exists (m : mdp unit) p mu q qp k s a, regular m 0 /\ distribution m p /\ distribution m mu /\
  action_values m gamma tt p qp /\ apart m 1 q qp /\ (a < n_actions m)%nat /\ 1 < Rabs (untruncated m gamma p mu q k s a - qp s a).
Proof. exact untruncated_grows. Qed.

(** Not vacuous: a policy that never does what the behaviour does. *)
Example C95_witness : regular loop_mdp 0 /\ distribution loop_mdp (always 0) /\ distribution loop_mdp (always 1) /\ action_values loop_mdp (1 / 2) tt (always 0) (fun _ _ => 0) /\
  apart loop_mdp 1 (fun _ a => match a with O => -1 | _ => 1 end) (fun _ _ => 0).
Proof.
  split; [exact loop_regular|]. split; [apply always_distribution; lia|]. split; [apply always_distribution; lia|]. split; [apply loop_zero|].
  intros s a _. rewrite Rminus_0_r. destruct a; unfold Rabs; destruct (Rcase_abs _); lra.
Qed.

Print Assumptions C95_values.
Print Assumptions C95_episodes.
Print Assumptions C95_fixed_point.
Print Assumptions C95_contracts.
Print Assumptions C95_converges.
Print Assumptions C95_untruncated_refuted.
