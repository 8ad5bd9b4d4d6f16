(** C52: PCL replay applies each importance weight to its own episode.
    C63: PCL's batched replay evaluates each episode as if it were alone.
    C64: PCL's loss is the squared path-consistency error. *)
From Coq Require Import Reals Lra Permutation.
From Verif Require Import Base.PyBase Spec.SumSpec Model.PCL Spec.PCLSpec Proofs.PCLProofs.
Local Open Scope R_scope.

(** The full statement of C52 would be
      p_replay model c eps ws = Ok (replay_target model c eps ws)
    for all episodes and weights.  It is false. *)

(** Two one-step episodes of the same length: the order is reversed, so each
    gets the other's weight. *)
Definition ex52_model (s : nat) : pout nat := (fun _ => 0, 0).
Definition ex52_conf : pconf := PConf 1 1 1 0 1 false 1.
Definition ex52_ep (r : R) : list (ptrans nat nat) := [PTrans 0%nat 0%nat r 0%nat true].
Theorem C52_pcl_weights_refuted : exists (eps : list (list (ptrans nat nat))) ws x,
  Forall (@good_episode nat nat) eps /\ length ws = length eps
  /\ p_replay ex52_model ex52_conf eps ws = Ok x /\ x <> replay_target ex52_model ex52_conf eps ws.
Proof.
  exists [ex52_ep 1; ex52_ep 0], [1; 0]. eexists. split; [|split; [reflexivity|split]].
  - repeat constructor; discriminate.
  - apply replay_sorted; [cbn; lia|discriminate|]. repeat constructor; discriminate.
  - change (sorted_episodes [ex52_ep 1; ex52_ep 0]) with [ex52_ep 0; ex52_ep 1]. unfold replay_target. cbn [weighted_losses]. unfold episode_loss, consistency_loss, consistency_error. cbn. unfold Rdiv. rewrite ?Rinv_1. intros E. lra.
Qed.
Print Assumptions C52_pcl_weights_refuted.

(** Two episodes of different lengths. *)
Definition ex52_long (r : R) : list (ptrans nat nat) := [PTrans 0%nat 0%nat r 0%nat false; PTrans 0%nat 0%nat r 0%nat true].
Theorem C52_pcl_weights_lengths_refuted : exists (eps : list (list (ptrans nat nat))) ws x,
  Forall (@good_episode nat nat) eps /\ length ws = length eps /\ map (@length _) eps = [1; 2]%nat
  /\ p_replay ex52_model ex52_conf eps ws = Ok x /\ x <> replay_target ex52_model ex52_conf eps ws.
Proof.
  exists [ex52_ep 1; ex52_long 0], [1; 0]. eexists. split; [|split; [reflexivity|split; [reflexivity|split]]].
  - repeat constructor; discriminate.
  - apply replay_sorted; [cbn; lia|discriminate|]. repeat constructor; discriminate.
  - change (sorted_episodes [ex52_ep 1; ex52_long 0]) with [ex52_long 0; ex52_ep 1]. unfold replay_target. cbn [weighted_losses]. unfold episode_loss, consistency_loss, consistency_error. cbn. unfold Rdiv. rewrite ?Rinv_1. intros E. lra.
Qed.
Print Assumptions C52_pcl_weights_lengths_refuted.

(** What holds: the weights are applied to the episodes in the sorted order. *)
Theorem C52_pcl_weights_sorted_partial : forall St Ac (model : St -> pout Ac) c eps ws, (1 <= pc_rollout c)%nat -> eps <> [] ->
  Forall (@good_episode St Ac) eps -> p_replay model c eps ws = Ok (replay_target model c (sorted_episodes eps) ws).
Proof. exact replay_sorted. Qed.
Print Assumptions C52_pcl_weights_sorted_partial.

(** Hence each episode gets its own weight when the lengths strictly decrease, *)
Theorem C52_pcl_weights_partial : forall St Ac (model : St -> pout Ac) c eps ws, (1 <= pc_rollout c)%nat -> eps <> [] ->
  Forall (@good_episode St Ac) eps -> strictly_descending eps -> p_replay model c eps ws = Ok (replay_target model c eps ws).
Proof. exact replay_strict. Qed.
Print Assumptions C52_pcl_weights_partial.

(** and when all the weights are equal. *)
Theorem C52_pcl_equal_weights_partial : forall St Ac (model : St -> pout Ac) c w eps, (1 <= pc_rollout c)%nat -> eps <> [] ->
  Forall (@good_episode St Ac) eps ->
  p_replay model c eps (repeat w (length eps)) = Ok (replay_target model c eps (repeat w (length eps))).
Proof. exact replay_const. Qed.
Print Assumptions C52_pcl_equal_weights_partial.

(** C63: with uniform sampling, batching the episodes of different lengths gives
    the mean of the losses of each episode, computed from its own transitions
    alone; no assertion fails. *)
Theorem C63_pcl_batched_replay : forall St Ac (model : St -> pout Ac) c eps, (1 <= pc_rollout c)%nat -> eps <> [] ->
  Forall (@good_episode St Ac) eps ->
  p_replay_uniform model c eps = Ok (total_of (episode_loss model c) eps / INR (pc_batchsize c)).
Proof. exact replay_uniform. Qed.
Print Assumptions C63_pcl_batched_replay.

(** The episodes are the sampled ones, each once. *)
Theorem C63_pcl_same_episodes : forall A (l : list (list A)), Permutation (sorted_episodes l) l.
Proof. exact sorted_perm. Qed.
Print Assumptions C63_pcl_same_episodes.

(** C64: the loss of a sequence is the scaled sum of the squares of its
    consistency errors, *)
Theorem C64_pcl_loss : forall c ds, (1 <= pc_rollout c)%nat -> ds <> [] -> p_loss c ds = Ok (consistency_loss c ds).
Proof. exact loss_ok. Qed.
Print Assumptions C64_pcl_loss.

(** and it is zero exactly when the sequence is path-consistent. *)
Theorem C64_pcl_zero_loss : forall c ds, (1 <= pc_rollout c)%nat -> ds <> [] -> 0 < pc_tau c -> 0 <= pc_pi_coef c -> 0 <= pc_v_coef c ->
  0 < pc_pi_coef c + pc_v_coef c ->
  exists l, p_loss c ds = Ok l /\ 0 <= l /\ (l = 0 <-> forall t, (t < length ds)%nat -> consistency_error c ds t = 0).
Proof. exact zero_loss_lemma. Qed.
Print Assumptions C64_pcl_zero_loss.

(** Non-vacuity: episodes of three different lengths meet the hypotheses, and the
    sequence with V = 0 and reward = tau log pi is consistent. *)
Example C63_ex : Forall (@good_episode nat nat) [ex52_ep 1; ex52_long 2; ex52_ep 3] /\ sorted_episodes [ex52_ep 1; ex52_long 2; ex52_ep 3] = [ex52_long 2; ex52_ep 3; ex52_ep 1].
Proof. split; [repeat constructor; discriminate|reflexivity]. Qed.
Example C52_ex : strictly_descending [ex52_long 2; ex52_ep 3].
Proof. repeat constructor. Qed.
Example C64_ex : consistency_error (PConf (1/2) 2 1 1 2 true 1) [PData 4 0 0 2; PData 2 0 0 1] 0 = 0
  /\ consistency_error (PConf (1/2) 2 1 1 2 true 1) [PData 4 0 0 2; PData 3 0 0 1] 0 = 1/2.
Proof. unfold consistency_error. cbn. lra. Qed.
