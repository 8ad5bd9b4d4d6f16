(** C48, C60, C61, C62: targets and losses of the Q-learning agents. *)
From Coq Require Import Reals List Lia Lra.
From Verif Require Import Base.PyBase Model.ReplayUpdater Model.Distributions Model.Targets Spec.ReturnSpec Spec.SumSpec Spec.TargetSpec Proofs.TargetProofs Proofs.ReportedErrorsProofs.
Import ListNotations.
Local Open Scope R_scope.

(** C48: from sampled windows to targets: every agent below bootstraps the n-step return
    of the window with gamma^n times its value of the window's final state, and not at
    all after a terminal transition. *)
Theorem C48_n_step_targets : forall (S A S' U : Type) (phi : S -> S') (gamma : R) (exps : list (list (transition S A))) (d : transition S A),
  (forall e, In e exps -> e <> []) ->
  exists b, batch_experiences phi gamma exps = Ok b /\
  let final e := phi (t_next_state (last e d)) in
  let targets_are ts (value : S' -> R) := ts = map (fun e => nstep_target gamma e (value (final e))) exps in
  (forall target, targets_are (dqn_targets target b) (fun s => q_maximum (target s))) /\
  (forall online target, targets_are (double_dqn_targets online target b) (fun s => q_evaluate (target s) (q_greedy (online s)))) /\
  (forall choose target, targets_are (sarsa_targets choose target b) (fun s => q_evaluate (target s) (choose s))) /\
  (forall k target, targets_are (dpp_targets k target b) (fun s => l_operator k (target s))) /\
  (forall (act : S' -> U) q1 q2, targets_are (td3_targets act q1 q2 b) (fun s => Rmin (q1 s (act s)) (q2 s (act s)))) /\
  (forall temp (act : S' -> U * R) q1 q2, targets_are (sac_targets temp act q1 q2 b)
     (fun s => Rmin (q1 s (fst (act s))) (q2 s (fst (act s))) - temp * snd (act s))) /\
  (forall (act : S' -> U) q, targets_are (pgt_targets act q b) (fun s => q s (act s))) /\
  (forall quantiles, iqn_targets quantiles b = map (fun e => map (nstep_target gamma e) (quantiles (final e))) exps).
Proof.
  intros S A S' U phi gamma exps d NE. destruct (td_nstep phi gamma exps d NE) as (b & E & T & Q). exists b. split; [exact E|].
  cbv zeta. do 7 (split; [intros; apply T|]). exact Q.
Qed.
Print Assumptions C48_n_step_targets.

(** C48: DQN's value of a state is its largest Q value; double DQN evaluates, with the
    target network, an action that is greedy for the online network. *)
Theorem C48_state_values : forall qs online, qs <> [] -> online <> [] -> length online = length qs ->
  is_maximum (q_maximum qs) qs /\ is_greedy (q_greedy online) online /\ nth_error qs (q_greedy online) = Some (q_evaluate qs (q_greedy online)).
Proof.
  intros qs online NE NE' L. split; [exact (maximum_spec qs NE)|]. pose proof (greedy_spec online NE') as G. split; [exact G|].
  apply nth_error_nth'. destruct G as (m & E & _). rewrite <- L. apply nth_error_Some. congruence.
Qed.
Print Assumptions C48_state_values.

(** C48, partial: DDPG is right for windows of one transition.  Missing: longer windows. *)
Theorem C48_ddpg_one_step_partial : forall (S A S' U : Type) (phi : S -> S') (gamma : R) (exps : list (list (transition S A))) (d : transition S A),
  (forall e, In e exps -> length e = 1%nat) ->
  exists b, batch_experiences phi gamma exps = Ok b /\
  forall (act : S' -> U) q, let final e := phi (t_next_state (last e d)) in
    ddpg_targets gamma act q b = map (fun e => nstep_target gamma e (q (final e) (act (final e)))) exps.
Proof.
  intros S A S' U phi gamma exps d L. destruct (ddpg_nstep phi gamma exps d) as (b & E & T); [intros e I; specialize (L e I); destruct e; discriminate|].
  exists b. split; [exact E|]. intros act q final. rewrite T. apply map_ext_in. intros e I. unfold nstep_target. rewrite (L e I), pow_1. reflexivity.
Qed.
Print Assumptions C48_ddpg_one_step_partial.

Definition ex_tr (r : R) : transition nat nat := mk_tr 0%nat 0%nat r 1%nat None false.
Example C48_used : forall e, In e [[ex_tr 1; ex_tr 2]; [ex_tr 3]] -> e <> [].
Proof. intros e [<-|[<-|[]]]; discriminate. Qed.

(** C48, refuted part: with n-step replay DDPG discounts the bootstrapped value once
    instead of n times. *)
Theorem C48_ddpg_n_step_refuted : exists (gamma : R) (e : list (transition nat nat)) b,
  batch_experiences (fun s => s) gamma [e] = Ok b /\ e <> [] /\
  forall (q : nat -> unit -> R), (forall s u, q s u = 10) ->
    ddpg_targets gamma (fun _ => tt) q b = [nstep_target gamma e 20] /\ nstep_target gamma e 20 <> nstep_target gamma e 10.
Proof.
  exists (/ 2), [ex_tr 0; ex_tr 0].
  destruct (ddpg_nstep (fun s : nat => s) (/ 2) [[ex_tr 0; ex_tr 0]] (ex_tr 0)) as (b & E & T); [intros e [<-|[]]; discriminate|].
  exists b. split; [exact E|]. split; [discriminate|]. intros q Q. rewrite T. cbn [map]. rewrite Q.
  unfold nstep_target, discounted. cbn. split; [f_equal; field|lra].
Qed.
Print Assumptions C48_ddpg_n_step_refuted.

(** C60: advantage learning lowers the Bellman target by alpha times the action gap,
    leaving it unchanged for greedy actions; persistent advantage learning lies between
    advantage learning and Bellman. *)
Theorem C60_advantage_learning : forall alpha t_q qs a, 0 <= alpha -> (a < length qs)%nat ->
  al_target alpha t_q qs a <= t_q /\ (is_greedy a qs -> al_target alpha t_q qs a = t_q).
Proof. exact al_spec. Qed.
Print Assumptions C60_advantage_learning.
Theorem C60_persistent_advantage_learning : forall alpha t_q qs nqs a, 0 <= alpha -> (a < length qs)%nat -> (a < length nqs)%nat ->
  al_target alpha t_q qs a <= pal_target alpha t_q qs nqs a <= t_q /\ (is_greedy a qs \/ is_greedy a nqs -> pal_target alpha t_q qs nqs a = t_q).
Proof. exact pal_spec. Qed.
Print Assumptions C60_persistent_advantage_learning.
(** C60: dynamic policy programming: the operator of DPP is the Boltzmann average of the
    action values, that of DPPL their log-sum-exp and that of DPPGreedy their maximum; the
    target keeps the gaps between actions of the target network, and for DPPGreedy it is
    advantage learning with alpha = 1. *)
Theorem C60_dpp_operators : forall qs eta, qs <> [] ->
  l_operator (DPP eta) qs * total_of (fun q => exp (eta * q)) qs = total_of (fun q => exp (eta * q) * q) qs /\
  (eta <> 0 -> exp (eta * l_operator (DPPL eta) qs) = total_of (fun q => exp (eta * q)) qs) /\
  is_maximum (l_operator DPPGreedy qs) qs.
Proof. exact dpp_operators. Qed.
Print Assumptions C60_dpp_operators.
Theorem C60_dpp_gaps : forall k t_q qs a b, dpp_value k t_q qs a - dpp_value k t_q qs b = q_evaluate qs a - q_evaluate qs b.
Proof. exact dpp_gaps. Qed.
Print Assumptions C60_dpp_gaps.
Theorem C60_dpp_greedy : forall t_q qs a, dpp_value DPPGreedy t_q qs a = al_target 1 t_q qs a.
Proof. exact dpp_greedy_is_al. Qed.
Print Assumptions C60_dpp_greedy.
Example C60_used : is_greedy 1 [3; 5; 4] /\ ~ is_greedy 0 [3; 5; 4].
Proof.
  split; [exists 5; split; [reflexivity|]; intros x [<-|[<-|[<-|[]]]]; lra|]. intros (m & E & H). injection E as <-.
  specialize (H 5 (or_intror (or_introl eq_refl))). lra.
Qed.

(** C61: the loss with importance weights is the weighted sum of the individual losses
    (divided by the batch size for 'mean'); unit weights give the unweighted loss. *)
Theorem C61_weighted_loss : forall clip acc y t w, compute_weighted_value_loss y t w clip acc =
  total_of (fun z => row_loss clip (fst (fst z)) (snd (fst z)) * snd z) (combine (combine y t) w) /
  (match acc with Mean => INR (length y) | Sum => 1 end).
Proof. exact weighted_loss. Qed.
Print Assumptions C61_weighted_loss.
Theorem C61_unit_weights : forall clip acc y t, length y = length t -> y <> [] ->
  compute_value_loss y t clip acc = compute_weighted_value_loss y t (repeat 1 (length y)) clip acc.
Proof. exact unit_weights. Qed.
Print Assumptions C61_unit_weights.
(** C61: the clipped loss is non-negative, zero only for exact predictions, and at most
    both the squared and the absolute error. *)
Theorem C61_huber : forall y t, 0 <= huber 1 y t <= (y - t) ^ 2 / 2 /\ huber 1 y t <= Rabs (y - t) /\ (huber 1 y t = 0 <-> y = t).
Proof. exact huber_bounds. Qed.
Print Assumptions C61_huber.
(** C61: the errors reported to a prioritized buffer: one for each sample, in order, the distance of the prediction from its target; never negative, zero only for exact
    predictions; and of two samples, the one with the larger error is the one with the larger loss, clipped or not. *)
Theorem C61_reported_errors : forall clip y t, length y = length t ->
  length (errors_out y t) = length y /\ Forall (fun e => 0 <= e) (errors_out y t) /\
  (forall i a b, nth_error y i = Some a -> nth_error t i = Some b ->
    nth_error (errors_out y t) i = Some (Rabs (a - b)) /\ (Rabs (a - b) = 0 <-> a = b)) /\
  (forall i j a b c d e f, nth_error y i = Some a -> nth_error t i = Some b -> nth_error y j = Some c -> nth_error t j = Some d ->
    nth_error (errors_out y t) i = Some e -> nth_error (errors_out y t) j = Some f -> (e <= f <-> row_loss clip a b <= row_loss clip c d)).
Proof. exact reported_errors. Qed.
Print Assumptions C61_reported_errors.
Example C61_used : length [1; 2] = length [3; 4] /\ [1; 2] <> [].
Proof. split; [reflexivity|discriminate]. Qed.

(** C62, refuted: the loss of IQN for a prediction at threshold tau is not the quantile
    regression loss at tau. *)
Theorem C62_quantile_loss_refuted : exists tau y t, 0 <= tau <= 1 /\
  quantile_loss 1 tau y t <> quantile_regression (huber_of 1) tau y t.
Proof.
  exists (/ 4), 0, 1. split; [lra|]. rewrite quantile_mirrored by lra. unfold quantile_regression, huber_of.
  destruct (Rlt_dec 0 1); [|lra]. destruct (Rle_dec (1 - 0) 1); lra.
Qed.
Print Assumptions C62_quantile_loss_refuted.
(** C62, partial: it is the quantile regression loss at 1 - tau, so for thresholds drawn
    symmetrically around one half the collection of learnt quantiles is the same.
    Missing: that the prediction at tau is the tau-quantile, which is false. *)
Theorem C62_quantile_loss_mirrored_partial : forall kappa tau y t, 0 <= kappa -> 0 <= tau <= 1 ->
  quantile_loss kappa tau y t = quantile_regression (huber_of kappa) (1 - tau) y t.
Proof. exact quantile_mirrored. Qed.
Print Assumptions C62_quantile_loss_mirrored_partial.
