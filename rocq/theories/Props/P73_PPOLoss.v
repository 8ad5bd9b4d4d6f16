(** C73: what PPO's clipped losses reward, the standardisation of advantages, and the
    explained variance. *)
From Coq Require Import Reals List Lra.
From Verif Require Import Base.PyBase Model.Distributions Model.PPOLoss Spec.SumSpec Spec.PPOLossSpec Proofs.PPOLossProofs.
Import ListNotations.
Local Open Scope R_scope.

(** The policy loss is minus the average of the capped gain: it never promises more than
    the importance-weighted advantage, agrees with it while all ratios are within the
    clipping range, and before the first update it is minus the average advantage. *)
Theorem C73_policy_loss : forall eps l, 0 <= eps -> l <> [] ->
  loss_policy eps l = - average (fun s => capped_gain eps (s_adv s) (prob_ratio (s_logp s) (s_logp_old s))) l /\
  - average (fun s => prob_ratio (s_logp s) (s_logp_old s) * s_adv s) l <= loss_policy eps l /\
  ((forall s, In s l -> 1 - eps <= prob_ratio (s_logp s) (s_logp_old s) <= 1 + eps) ->
     loss_policy eps l = - average (fun s => prob_ratio (s_logp s) (s_logp_old s) * s_adv s) l) /\
  ((forall s, In s l -> s_logp s = s_logp_old s) -> loss_policy eps l = - average s_adv l).
Proof. exact policy_loss. Qed.

(** The whole loss: the policy loss, plus the value loss times its coefficient, minus the
    average entropy times its coefficient, so entropy is rewarded. *)
Theorem C73_loss : forall eps evf c_v c_e l, 0 <= eps -> l <> [] ->
  ppo_loss eps evf c_v c_e l =
    - average (fun s => capped_gain eps (s_adv s) (prob_ratio (s_logp s) (s_logp_old s))) l
    + c_v * loss_value evf l - c_e * average s_entropy l.
Proof. exact whole_loss. Qed.

(** One sample: never above the unclipped gain nor above the cap. *)
Theorem C73_gain_bounds : forall eps adv lp lpo, 0 <= eps ->
  clipped_gain eps adv lp lpo <= prob_ratio lp lpo * adv /\
  (1 - eps <= prob_ratio lp lpo <= 1 + eps -> clipped_gain eps adv lp lpo = prob_ratio lp lpo * adv) /\
  (0 <= adv -> clipped_gain eps adv lp lpo <= (1 + eps) * adv) /\ (adv <= 0 -> clipped_gain eps adv lp lpo <= (1 - eps) * adv).
Proof. exact gain_bounds. Qed.

(** No incentive beyond the clip: the derivative with respect to the log-probability
    vanishes once a good action is more than 1 + eps times as likely as before, or a bad
    one less than 1 - eps times, and otherwise is the policy-gradient term. *)
Theorem C73_gain_derivative : forall eps adv lp lpo, 0 <= eps ->
  ((0 < adv /\ 1 + eps < prob_ratio lp lpo) \/ (adv < 0 /\ prob_ratio lp lpo < 1 - eps) ->
     derivable_pt_lim (fun x => clipped_gain eps adv x lpo) lp 0) /\
  ((0 < adv /\ prob_ratio lp lpo < 1 + eps) \/ (adv < 0 /\ 1 - eps < prob_ratio lp lpo) ->
     derivable_pt_lim (fun x => clipped_gain eps adv x lpo) lp (prob_ratio lp lpo * adv)).
Proof. exact gain_derivative. Qed.

(** Value clipping only increases the squared error, and changes nothing while the
    predictions stay within clip_eps_vf of the old ones. *)
Theorem C73_value_loss : forall e l, 0 <= e -> l <> [] ->
  loss_value None l = average (fun s => (s_v s - s_teacher s) ^ 2) l /\
  loss_value None l <= loss_value (Some e) l /\
  ((forall s, In s l -> Rabs (s_v s - s_v_old s) <= e) -> loss_value (Some e) l = loss_value None l).
Proof. exact value_loss. Qed.

(** A prediction that left the range towards the target gets no gradient. *)
Theorem C73_value_flat : forall e s, 0 <= e ->
  (s_v_old s + e < s_v s /\ (s_v s - s_teacher s) ^ 2 < (s_v_old s + e - s_teacher s) ^ 2) \/
  (s_v s < s_v_old s - e /\ (s_v s - s_teacher s) ^ 2 < (s_v_old s - e - s_teacher s) ^ 2) ->
  derivable_pt_lim (fun x => value_term (Some e) (mk_sample (s_entropy s) x (s_logp s) (s_v_old s) (s_logp_old s) (s_adv s) (s_teacher s))) (s_v s) 0.
Proof. exact value_flat. Qed.

(** Standardised advantages: average zero, standard deviation just below one, same
    order, all zero when there is nothing to distinguish. *)
Theorem C73_standardized : forall all, all <> [] ->
  length (standardize all all) = length all /\ np_mean (standardize all all) = 0 /\
  np_std (standardize all all) = np_std all / (np_std all + std_eps) /\ 0 <= np_std (standardize all all) < 1 /\
  (forall i j a b, nth_error all i = Some a -> nth_error all j = Some b -> a < b ->
     exists a' b', nth_error (standardize all all) i = Some a' /\ nth_error (standardize all all) j = Some b' /\ a' < b') /\
  (all_equal all -> forall x, In x (standardize all all) -> x = 0).
Proof. exact standardized. Qed.

(** A minibatch uses the statistics of the whole dataset: a sample has the same
    standardised advantage in every minibatch. *)
Theorem C73_minibatch_standardized : forall all idx, (forall i, In i idx -> (i < length all)%nat) ->
  standardize all (map (fun i => nth i all 0) idx) = map (fun i => nth i (standardize all all) 0) idx.
Proof. exact minibatch_standardized. Qed.
Example C73_minibatch_case : forall i, In i [2; 0]%nat -> (i < length [5; 6; 7])%nat.
Proof. intros i [<-|[<-|[]]]; cbn; auto with arith. Qed.

(** The recurrent path refuses exactly the datasets the other path maps to zeros: equal
    advantages, in particular a single transition, end training with AssertionError. *)
Theorem C73_recurrent_equal_advantages_refuted : forall all advs, all <> [] ->
  (standardize_recurrent all advs = Raise AssertionError <-> all_equal all) /\
  (~ all_equal all -> standardize_recurrent all advs = Ok (standardize all advs)).
Proof. exact recurrent_raises. Qed.

(** The explained variance: nan exactly for equal targets, at most one, one exactly when
    the errors are all equal, zero for constant predictions. *)
Theorem C73_explained_variance : forall trs, trs <> [] ->
  (explained_variance trs = None <-> all_equal (map fst trs)) /\
  (forall v, explained_variance trs = Some v -> v <= 1 /\ (v = 1 <-> all_equal (map (fun p => fst p - snd p) trs)) /\
     (all_equal (map snd trs) -> v = 0)).
Proof. exact explained. Qed.

(** TRPO's gain is never below PPO's surrogate (the entropy bonus apart), and before the
    update it is the average advantage plus the bonus. *)
Theorem C73_trpo_gain : forall c_e l, l <> [] ->
  (forall eps, 0 <= eps -> - loss_policy eps l <= trpo_gain c_e l - c_e * average s_entropy l) /\
  ((forall s, In s l -> s_logp s = s_logp_old s) -> trpo_gain c_e l = average s_adv l + c_e * average s_entropy l).
Proof. exact trpo_at_old. Qed.

(** Non-vacuity: a clipped good action (ratio e > 1.2), a clipped bad one, and a
    prediction that moved too far towards its target. *)
Example C73_clipped_case : 1 + / 5 < prob_ratio 1 0 /\ prob_ratio (-1) 0 < 1 - / 5.
Proof.
  unfold prob_ratio. split.
  - pose proof (exp_ineq1 1 ltac:(lra)). replace (1 - 0) with 1 by ring. lra.
  - replace (-1 - 0) with (- (1)) by ring. rewrite exp_Ropp. pose proof (exp_ineq1 1 ltac:(lra)) as H.
    apply Rlt_le_trans with (/ 2); [apply Rinv_lt_contravar; [nra|lra]|lra].
Qed.
Example C73_value_case : let s := mk_sample 0 3 0 0 0 0 4 in s_v_old s + 1 < s_v s /\ (s_v s - s_teacher s) ^ 2 < (s_v_old s + 1 - s_teacher s) ^ 2.
Proof. cbn. lra. Qed.
Example C73_single_transition : standardize_recurrent [3] [3] = Raise AssertionError.
Proof. apply C73_recurrent_equal_advantages_refuted; [discriminate|]. intros x y [<-|[]] [<-|[]]. reflexivity. Qed.
Example C73_explained_case : explained_variance [(0, 1); (2, 3)] = Some 1.
Proof.
  unfold explained_variance. cbn [map fst snd]. assert (V : np_var [0; 2] = 1) by (unfold np_var, np_mean, fmean; cbn; field).
  rewrite V. destruct (Req_EM_T 1 0); [lra|]. f_equal. unfold np_var, np_mean, fmean; cbn; field.
Qed.

Print Assumptions C73_policy_loss.
Print Assumptions C73_gain_bounds.
Print Assumptions C73_gain_derivative.
Print Assumptions C73_value_loss.
Print Assumptions C73_value_flat.
Print Assumptions C73_standardized.
Print Assumptions C73_recurrent_equal_advantages_refuted.
Print Assumptions C73_explained_variance.
Print Assumptions C73_trpo_gain.
Print Assumptions C73_loss.
Print Assumptions C73_minibatch_standardized.
