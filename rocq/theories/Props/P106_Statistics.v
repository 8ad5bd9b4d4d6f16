(** C106: what the statistics that agents report mean. *)
From Coq Require Import QArith Qreals Reals List Lia Lra.
From Verif Require Import Base.PyBase Model.Distributions Model.PPOLoss Model.LineSearch Spec.LineSearchSpec Model.Statistics Spec.StatisticsSpec Proofs.StatisticsProofs.
Import ListNotations.
Local Open Scope R_scope.

(** The two ways of writing the update of a moving average are the same, and the statistic is the exponentially weighted average of all samples so far, started at 0. *)
Theorem C106_moving_average : forall decay xs,
  fold_left (scaled_average decay) xs 0 = exponential_average decay xs /\ fold_left (moved_average decay) xs 0 = exponential_average decay xs.
Proof. intros decay xs. exact (conj (average_is decay xs) (average_is2 decay xs)). Qed.

(** If [n] samples are within bounds, the statistic is within these bounds scaled by [1 - decay^n]: it is never beyond the samples and 0, and is drawn towards 0
    while there are few samples. *)
Theorem C106_moving_average_range : forall decay l u xs, 0 <= decay <= 1 -> all_within l u xs ->
  (1 - decay ^ length xs) * l <= exponential_average decay xs <= (1 - decay ^ length xs) * u.
Proof. exact range. Qed.

(** A constant is reported as [1 - decay^n] times that constant, which tends to the constant. *)
Theorem C106_moving_average_bias : forall decay c,
  (forall n, exponential_average decay (repeat c n) = c * (1 - decay ^ n)) /\
  (0 <= decay < 1 -> forall eps, 0 < eps -> exists N, forall n, (N <= n)%nat -> Rabs (exponential_average decay (repeat c n) - c) < eps).
Proof. intros decay c. exact (conj (constant decay c) (constant_limit decay c)). Qed.

(** What was reported before the last [k] samples matters by the factor [decay^k] only. *)
Theorem C106_forgetting : forall decay before recent,
  exponential_average decay (before ++ recent) = decay ^ length recent * exponential_average decay before + exponential_average decay recent.
Proof. exact average_app. Qed.

(** Whatever the order of calls: [average_q] of DQN averages the values seen by act, act_and_train and batch_act_and_train, [average_q] of DDPG and PGT those of all
    calls that choose actions, and that of NSQ those of act_and_train. *)
Theorem C106_average_q : forall decay calls,
  average_after (dqn_average_q decay) calls = exponential_average decay (flat_map dqn_samples calls) /\
  average_after (ddpg_average_q decay) calls = exponential_average decay (flat_map ddpg_samples calls) /\
  average_after (nsq_average_q decay) calls = exponential_average decay (flat_map training_samples calls).
Proof. intros decay calls. exact (conj (dqn_is decay calls) (conj (ddpg_is decay calls) (nsq_is decay calls))). Qed.

(** The evaluator asks for the statistics after it has evaluated the agent: the [average_q] of DQN it writes is mostly that of the evaluation if this is long. *)
Theorem C106_average_q_after_evaluation : forall decay calls qs,
  average_after (dqn_average_q decay) (calls ++ map Act qs) = decay ^ length qs * average_after (dqn_average_q decay) calls + exponential_average decay qs.
Proof. exact after_evaluation. Qed.

(** So the statistics do not describe training: the same training is reported differently with and without evaluations, and differently again when the evaluation
    uses a vector env. *)
Theorem C106_average_q_of_training_refuted :
  ~ (forall decay calls, 0 <= decay < 1 -> average_after (dqn_average_q decay) calls = average_after (dqn_average_q decay) (filter is_training calls)) /\
  ~ (forall decay calls q, 0 <= decay < 1 -> average_after (dqn_average_q decay) (calls ++ [Act q]) = average_after (dqn_average_q decay) (calls ++ [BatchAct [q]])).
Proof.
  split; intros H.
  - assert (B : 0 <= / 2 < 1) by lra. specialize (H (/ 2) [Act 1] B). unfold average_after in H. cbn in H. unfold scaled_average in H. lra.
  - assert (B : 0 <= / 2 < 1) by lra. specialize (H (/ 2) [] 1 B). unfold average_after in H. cbn in H. unfold scaled_average in H. lra.
Qed.

(** [average_value] of A2C is not an average of values: it averages squared errors, so it is never negative, and it is 0 as long as the values are right. *)
Theorem C106_a2c_average_value : forall decay us,
  (0 <= decay <= 1 -> 0 <= fold_left (a2c_average_value decay) us 0) /\
  (Forall (fun u => a2_returns u = a2_values u) us -> fold_left (a2c_average_value decay) us 0 = 0).
Proof. intros decay us. exact (conj (a2c_nonneg decay us) (a2c_perfect decay us)). Qed.

(** So it is not the moving average of the mean values that its name says. *)
Theorem C106_a2c_average_value_refuted :
  ~ (forall decay us, 0 <= decay < 1 -> fold_left (a2c_average_value decay) us 0 = exponential_average decay (map (fun u => fsum (a2_values u) / INR (length (a2_values u))) us)).
Proof.
  intros H. assert (B : 0 <= / 2 < 1) by lra. specialize (H (/ 2) [mk_a2c [1] [1]] B). rewrite a2c_perfect in H by (repeat constructor).
  unfold exponential_average in H. cbn in H. lra.
Qed.

(** A record holds the newest samples, in order, as many as its window has room for, however calls append one sample or many. *)
Theorem C106_record : forall window calls, record_after window calls = newest window (concat calls).
Proof. exact record_is. Qed.

(** What is reported is nan exactly if nothing has been recorded, and else the mean of the newest samples, which is within their bounds. *)
Theorem C106_record_mean : forall window calls,
  (window <> Some 0%nat -> (mean_or_nan (record_after window calls) = None <-> concat calls = [])) /\
  (forall l u m, mean_or_nan (record_after window calls) = Some m -> all_within l u (concat calls) ->
     m = fsum (newest window (concat calls)) / INR (length (newest window (concat calls))) /\ l <= m <= u).
Proof. intros window calls. rewrite record_is. exact (conj (mean_none window (concat calls)) (mean_value window (concat calls))). Qed.

(** TRPO records the divergences of successful line searches, all within [max_kl], and a step size for every line search: a power of one half, or 0 for a failed one. *)
Theorem C106_trpo_records : forall max_kl max_backtrack kl_window step_window searches, Forall (is_search_outcome max_kl max_backtrack) searches ->
  fold_left (trpo_kl kl_window) searches [] = newest kl_window (accepted_kls searches) /\
  fold_left (trpo_step step_window) searches [] = newest step_window (map (fun o => Q2R (o_step_size o)) searches) /\
  Forall (fun kl => kl <= Q2R max_kl) (fold_left (trpo_kl kl_window) searches []) /\
  Forall (fun s => s = 0 \/ exists i, (i <= max_backtrack)%nat /\ s = (/ 2) ^ i) (fold_left (trpo_step step_window) searches []).
Proof.
  intros max_kl max_backtrack wk ws os F. pose proof (trpo_bounds max_kl max_backtrack wk ws os F) as W.
  exact (conj (trpo_kl_is wk os) (conj (trpo_step_is ws os) W)).
Qed.

(** Non-vacuity. *)
Example C106_case_average : average_after (dqn_average_q (/ 2)) [ActAndTrain 4; BatchActAndTrain [1; 3]; BatchAct [100]; Act 8] = / 2 * 8 + / 4 * 2 + / 8 * 4.
Proof. rewrite dqn_is. unfold exponential_average. cbn. lra. Qed.
Example C106_case_range : all_within 1 3 [1; 3; 2] /\ 0 <= / 2 <= 1.
Proof. split; [repeat constructor; lra|lra]. Qed.
Example C106_case_record : record_after (Some 2%nat) [[1]; [2; 3]; []; [4]] = [3; 4].
Proof. reflexivity. Qed.
Example C106_case_search : is_search_outcome 1 0 (mk_outcome [mk_param [1%nat] [0 + 1 * 1]%Q] 1 (Some (Fin 1))).
Proof.
  exists (fun _ => (Fin 0, Fin 1)), (Fin 0), [mk_param [1%nat] [0%Q]], [1%Q]. split; [|split; reflexivity]. repeat constructor.
Qed.

Print Assumptions C106_moving_average.
Print Assumptions C106_moving_average_range.
Print Assumptions C106_moving_average_bias.
Print Assumptions C106_forgetting.
Print Assumptions C106_average_q.
Print Assumptions C106_average_q_after_evaluation.
Print Assumptions C106_average_q_of_training_refuted.
Print Assumptions C106_a2c_average_value.
Print Assumptions C106_a2c_average_value_refuted.
Print Assumptions C106_record.
Print Assumptions C106_record_mean.
Print Assumptions C106_trpo_records.
