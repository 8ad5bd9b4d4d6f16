(** C93: the entropy-regularised agents, SAC and PCL, aim at the right values and policies. *)
From Coq Require Import Reals List Arith Bool Lia Lra.
From Verif Require Import Base.PyBase Model.Targets Model.PCL Spec.SumSpec Spec.PolicyGradientSpec Spec.BellmanSpec Spec.PCLSpec Spec.SoftSpec Proofs.SoftProofs.
Import ListNotations.
Local Open Scope nat_scope.
Local Open Scope R_scope.

(** SAC, evaluation: every policy has exactly one value, the limit of its expected returns with
    entropy, *)
Theorem C93_value : forall St (m : mdp St) gamma tau final b, 0 <= gamma < 1 -> 0 < tau -> regular m b -> forall p, distribution m p ->
  (exists v, soft_value m gamma tau final p v) /\
  (forall v v', soft_value m gamma tau final p v -> soft_value m gamma tau final p v' -> forall s, v s = v' s) /\
  forall v w c, soft_value m gamma tau final p v -> 0 <= c -> (forall s, Rabs (w s - v s) <= c) ->
  forall k s, Rabs (soft_return m gamma tau final w p k s - v s) <= gamma ^ k * c.
Proof.
  exact (fun St m gamma tau final b G T REG p D => conj (value_exists m gamma tau final b G T REG p D)
    (conj (fun v v' => value_unique m gamma tau final b G REG p v v' D) (fun v w c => return_converges m gamma tau final b G REG p v w c D))).
Qed.
(** and repeated exact fitting of both Q-functions to the targets of SAC converges to the action values of the policy, with rate gamma. *)
Theorem C93_sac_evaluation : forall St (m : mdp St) gamma tau final b, 0 <= gamma < 1 -> regular m b ->
  forall p v q1 q2 d, distribution m p -> soft_value m gamma tau final p v -> 0 <= d ->
  (forall s a, Rabs (q1 s a - lookahead m gamma final v s a) <= d) -> (forall s a, Rabs (q2 s a - lookahead m gamma final v s a) <= d) ->
  forall k s a, Rabs (fst (sac_iterate m gamma tau final p k q1 q2) s a - lookahead m gamma final v s a) <= gamma ^ k * d /\
    Rabs (snd (sac_iterate m gamma tau final p k q1 q2) s a - lookahead m gamma final v s a) <= gamma ^ k * d.
Proof. exact @evaluation. Qed.
(** SAC, improvement: a policy with no larger loss in any state is worth at least as much everywhere; *)
Theorem C93_sac_improvement : forall St (m : mdp St) gamma tau final b, 0 <= gamma < 1 -> regular m b ->
  forall p p' v v', distribution m p -> distribution m p' -> soft_value m gamma tau final p v -> soft_value m gamma tau final p' v' ->
  (forall s, sac_state_loss m tau (p' s) (lookahead m gamma final v s) <= sac_state_loss m tau (p s) (lookahead m gamma final v s)) ->
  forall s, v s <= v' s.
Proof. exact @improvement. Qed.
(** and a policy that no other improves on in its own loss is the optimal one. *)
Theorem C93_sac_stationary : forall St (m : mdp St) gamma tau final b, 0 < tau -> regular m b ->
  forall p v, distribution m p -> soft_value m gamma tau final p v ->
  (forall s r, (forall a, 0 <= r a) -> sum_below (n_actions m) r = 1 -> sac_state_loss m tau (p s) (lookahead m gamma final v s) <= sac_state_loss m tau r (lookahead m gamma final v s)) ->
  soft_optimal m gamma tau final v /\ forall s a, (a < n_actions m)%nat -> p s a = soft_policy m gamma tau final v s a.
Proof. exact @stationary_optimal. Qed.
(** The optimal value exists, is unique, is attained by the policy that goes with it, and no policy is
    worth more. *)
Theorem C93_optimal : forall St (m : mdp St) gamma tau final b, 0 <= gamma < 1 -> 0 < tau -> regular m b ->
  (exists v, soft_optimal m gamma tau final v) /\
  (forall v v', soft_optimal m gamma tau final v -> soft_optimal m gamma tau final v' -> forall s, v s = v' s) /\
  (forall v, soft_optimal m gamma tau final v -> distribution m (soft_policy m gamma tau final v) /\ soft_value m gamma tau final (soft_policy m gamma tau final v) v) /\
  (forall v vo p, soft_optimal m gamma tau final vo -> distribution m p -> soft_value m gamma tau final p v -> forall s, v s <= vo s).
Proof.
  exact (fun St m gamma tau final b G T REG => conj (optimal_ex m gamma tau final b G T REG) (conj (optimal_one m gamma tau final b G T REG)
    (conj (policy_of_optimal m gamma tau final b T REG) (optimal_best m gamma tau final b G T REG)))).
Qed.
(** PCL, where every action has one outcome: the loss is zero on all runs, for any length of
    rollouts, exactly if the value and the policy are the optimal ones. *)
Theorem C93_pcl : forall St (m : mdp St) gamma tau final, 0 < tau ->
  forall c, pc_gamma c = gamma -> pc_tau c = tau -> (1 <= pc_rollout c)%nat -> 0 <= pc_pi_coef c -> 0 <= pc_v_coef c -> 0 < pc_pi_coef c + pc_v_coef c ->
  forall p v, (forall s a, (a < n_actions m)%nat -> 0 < p s a) -> distribution m p -> deterministic m -> (exists b, forall s, Rabs (v s) <= b) ->
  ((forall l, l <> [] -> run_of m final l -> p_loss c (map (own_data (pcl_model p v)) l) = Ok 0) <->
   soft_optimal m gamma tau final v /\ forall s a, (a < n_actions m)%nat -> p s a = soft_policy m gamma tau final v s a).
Proof. exact @consistent_paths. Qed.
(** In a random environment there may be no value and policy with zero loss, not even the
    optimal ones. *)
Theorem C93_pcl_random_refuted : forall c p v, (1 <= pc_rollout c)%nat -> 0 < pc_tau c -> 0 <= pc_pi_coef c -> 0 <= pc_v_coef c -> 0 < pc_pi_coef c + pc_v_coef c ->
  ~ forall l, l <> [] -> run_of coin_mdp tt l -> p_loss c (map (own_data (pcl_model p v)) l) = Ok 0.
Proof. exact coin_refutes. Qed.
Print Assumptions C93_value.
Print Assumptions C93_sac_evaluation.
Print Assumptions C93_sac_improvement.
Print Assumptions C93_sac_stationary.
Print Assumptions C93_optimal.
Print Assumptions C93_pcl.
Print Assumptions C93_pcl_random_refuted.

(** Processes that meet the hypotheses, with runs of several steps, and the optimum of one of them. *)
Example C93_example : regular coin_mdp 1 /\ regular wait_mdp 1 /\ deterministic wait_mdp /\
  run_of wait_mdp tt [PTrans tt 1%nat 0 tt false; PTrans tt 0%nat 1 tt true] /\
  soft_optimal wait_mdp 0 1 tt (fun _ => ln (exp 1 + 1)).
Proof.
  split; [split; [intros [] a; unfold total_of; cbn; unfold o_prob; cbn; lra|split; [cbn; lia|]]|split; [split; [intros [] [|a]; unfold total_of; cbn; unfold o_prob; cbn; lra|split; [cbn; lia|]]|split; [|split; [|split]]]].
  - intros [] a z [<-|[<-|[]]]; unfold o_prob, o_reward; cbn; split; try lra; unfold Rabs; destruct (Rcase_abs _); lra.
  - intros [] [|a] z [<-|[]]; unfold o_prob, o_reward; cbn; rewrite ?Rabs_R0, ?Rabs_R1; lra.
  - intros [] [|a]; cbn; eauto.
  - cbn [run_of pt_action pt_state pt_reward pt_next pt_terminal]. repeat split; try (cbn; lia).
    + exists (1, 0, Some tt). cbn. unfold o_prob. cbn. repeat split; [auto|lra].
    + exists (1, 1, None). cbn. unfold o_prob. cbn. repeat split; [auto|lra].
  - exists (Rabs (ln (exp 1 + 1))). intros. lra.
  - intros []. rewrite Rmult_1_l. f_equal. cbn. unfold lookahead, total_of. cbn. unfold td_row, o_prob, o_reward. cbn.
    replace ((1 * (1 + 0 * (1 - 1) * ln (exp 1 + 1)) + 0) / 1) with 1 by field. replace ((1 * (0 + 0 * (1 - 0) * ln (exp 1 + 1)) + 0) / 1) with 0 by field. rewrite exp_0. ring.
Qed.
