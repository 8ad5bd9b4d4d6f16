(** C103: what the actor and the critic of PGT aim at. *)
From Coq Require Import Reals List Arith Lia Lra.
From Verif Require Import Base.PyBase Model.Distributions Model.ReplayUpdater Model.Targets Model.PGT Spec.SumSpec Spec.PolicyGradientSpec Spec.BellmanSpec Spec.PGTSpec.
From Verif Require Import Proofs.PGTProofs.
Import ListNotations.
Local Open Scope R_scope.

(** On average over the sampled actions, the actor's step in any batch of states is the gradient of the mean over these states of the value of the policy's choice
    plus [beta] times its entropy; the value of the most probable action, that is subtracted, makes no difference. *)
Theorem C103_actor : forall S' n beta theta0 (p : R -> S' -> nat -> R) dp q mode,
  (forall theta s a, 0 < p theta s a) -> (forall theta s, sum_below n (p theta s) = 1) -> (forall s a, derivable_pt_lim (fun theta => p theta s a) theta0 (dp s a)) ->
  exists dJ, (forall s, derivable_pt_lim (fun theta => regularized_value n beta (p theta s) (q s)) theta0 (dJ s)) /\
  forall states, derivable_pt_lim (fun theta => over_samples n (p theta0) states (pgt_actor_loss beta q (finite_policy n (p theta0) mode) (finite_policy n (p theta) mode) states)) theta0
    (- (total_of dJ states / INR (length states))).
Proof.
  intros S' n beta theta0 p dp q mode P0 P1 D.
  exact (ex_intro _ (slope n beta theta0 p dp q) (conj (improvement_deriv n beta theta0 p dp q P0 P1 D) (actor_gradient n beta theta0 p dp q mode P0 P1 D))).
Qed.
Print Assumptions C103_actor.

(** A policy with a logit per action rests there exactly when its probabilities are proportional to [exp (q a / beta)], *)
Theorem C103_rest : forall n beta logits q, (0 < n)%nat -> 0 < beta ->
  (forall k, (k < n)%nat -> derivable_pt_lim (fun t => regularized_value n beta (softmax_of n (bump logits k t)) q) 0 0) <->
  (forall a, (a < n)%nat -> softmax_of n logits a = softmax_of n (fun b => q b / beta) a).
Proof. exact rests_boltzmann. Qed.
Print Assumptions C103_rest.
(** which is the best of all policies and the only best one. *)
Theorem C103_best : forall n beta p q, (0 < n)%nat -> 0 < beta -> (forall a, 0 <= p a) -> sum_below n p = 1 ->
  regularized_value n beta p q <= regularized_value n beta (softmax_of n (fun b => q b / beta)) q /\
  (regularized_value n beta p q = regularized_value n beta (softmax_of n (fun b => q b / beta)) q -> forall a, (a < n)%nat -> p a = softmax_of n (fun b => q b / beta) a).
Proof. exact best. Qed.
Print Assumptions C103_best.
(** Without the entropy ([beta = 0]) it never rests unless all actions are worth the same. *)
Theorem C103_no_entropy : forall n logits q, (0 < n)%nat ->
  (forall k, (k < n)%nat -> derivable_pt_lim (fun t => regularized_value n 0 (softmax_of n (bump logits k t)) q) 0 0) <-> (forall a b, (a < n)%nat -> (b < n)%nat -> q a = q b).
Proof. exact rests_flat. Qed.
Print Assumptions C103_no_entropy.

(** The critic's targets are on average the value of taking the action and then following the target policy; entropies are not part of it.  *)
Theorem C103_critic : forall St (m : mdp St) gamma final p q s a, (forall s, sum_below (n_actions m) (p s) = 1) ->
  pgt_backup m gamma final p q s a = lookahead m gamma final (fun s' => sum_below (n_actions m) (fun a' => p s' a' * q s' a')) s a.
Proof. exact (fun St m gamma final => critic m gamma final). Qed.
Print Assumptions C103_critic.
(** So a critic that fits its targets knows the expected return of the policy. *)
Theorem C103_return : forall St (m : mdp St) gamma final p q s, (forall s, sum_below (n_actions m) (p s) = 1) ->
  (forall s a, (a < n_actions m)%nat -> q s a = pgt_backup m gamma final p q s a) ->
  let v := fun s => sum_below (n_actions m) (fun a => p s a * q s a) in forall k, expected_return m gamma v p k s = v s.
Proof. exact (fun St m gamma final => value_return m gamma final). Qed.
Print Assumptions C103_return.
(** When actor and critic both rest, the policy loses at most [beta * ln n / (1 - gamma)] in any state. *)
Theorem C103_near_optimal : forall St (m : mdp St) gamma final B v beta p q b s, 0 <= gamma < 1 -> regular m B -> optimal_value m gamma final v -> 0 < beta ->
  (forall s a, (a < n_actions m)%nat -> Rabs (q s a) <= b) -> (forall s a, p s a = softmax_of (n_actions m) (fun c => q s c / beta) a) ->
  (forall s a, (a < n_actions m)%nat -> q s a = pgt_backup m gamma final p q s a) ->
  v s - beta * ln (INR (n_actions m)) / (1 - gamma) <= sum_below (n_actions m) (fun a => p s a * q s a) <= v s.
Proof. intros St m gamma final B v beta p q b s G REG. exact (pair_optimal m gamma final B G REG v beta p q b s). Qed.
Print Assumptions C103_near_optimal.
(** Full statement: the policy is then optimal.  Refuted for every positive [beta]; this is also a case where both rest. *)
Theorem C103_optimal_refuted : forall gamma beta, 0 <= gamma < 1 -> 0 < beta ->
  let q := fun (_ : unit) a => match a with O => 1 | _ => 0 end in let p := fun s : unit => softmax_of 2 (fun c => q s c / beta) in
  regular pay_mdp 1 /\ optimal_value pay_mdp gamma tt (fun _ => 1) /\ (forall s a, (a < 2)%nat -> q s a = pgt_backup pay_mdp gamma tt p q s a) /\ sum_below 2 (fun a => p tt a * q tt a) < 1.
Proof. exact pay. Qed.
Print Assumptions C103_optimal_refuted.

(** Non-vacuity: a policy with a positive probability for every action, which varies with its parameter. *)
Example C103_softmax : let p := fun theta (s : nat) => softmax_of 2 (bump (fun _ => 0) 0 theta) in
  (forall theta s a, 0 < p theta s a) /\ (forall theta s, sum_below 2 (p theta s) = 1) /\
  (forall s a, derivable_pt_lim (fun theta => p theta s a) 0 (softmax_of 2 (fun _ => 0) a * ((if Nat.eqb a 0 then 1 else 0) - softmax_of 2 (fun _ => 0) 0))).
Proof.
  intros p. split; [intros; apply softmax_positive; lia|split; [intros; apply softmax_one; lia|]]. intros s a. apply (softmax_deriv 2 (fun _ => 0) 0 a). lia.
Qed.
