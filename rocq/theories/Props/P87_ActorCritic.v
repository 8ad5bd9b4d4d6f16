(** C87: an update of SAC or TD3 gives each optimizer the loss of the algorithm and moves the target
    networks and the temperature the right way. *)
From Coq Require Import Reals List Arith ZArith Bool Lia Lra.
From Verif Require Import Base.PyBase Model.Distributions Model.ReplayUpdater Model.ActorCritic Spec.SumSpec Spec.DistributionSpec Spec.ActorCriticSpec Proofs.ActorCriticProofs.
Import ListNotations.
Local Open Scope nat_scope.
Local Open Scope R_scope.

(** One SAC update, for all networks, optimizers, noises and batches: both critics get half the mean
    squared error to the same targets, which are made from the target networks, the policy and the
    temperature before the update and ignore the next state of terminal transitions; the policy gets
    temperature times log probability minus the smaller value of the updated critics; the
    target networks move towards the updated critics. *)
Theorem C87_sac_update : forall St Ac No (q : params -> St -> Ac -> R) (policy : params -> St -> No -> Ac * R) c s b, exists ys l1 l2 lp, let s' := sac_update q policy c s b in
  length ys = length (b_rows b) /\
  (forall k x, nth_error (b_rows b) k = Some x -> let '(a, logp) := policy (s_pol s) (r_next x) (b_next_noise b k) in
     nth_error ys k = Some (bootstrapped x (pessimistic q (s_t1 s) (s_t2 s) (r_next x) a - temperature c s * logp))) /\
  (s_q1 s' = sc_opt1 c (s_h1 s) (s_q1 s) l1 /\ s_h1 s' = l1 :: s_h1 s /\ forall p, l1 p = mean_squared_error ys (predictions q p (b_rows b)) / 2) /\
  (s_q2 s' = sc_opt2 c (s_h2 s) (s_q2 s) l2 /\ s_h2 s' = l2 :: s_h2 s /\ forall p, l2 p = mean_squared_error ys (predictions q p (b_rows b)) / 2) /\
  (s_pol s' = sc_optp c (s_hp s) (s_pol s) lp /\ s_hp s' = lp :: s_hp s /\
   forall p, lp p = mean (map (fun z => let '(a, logp) := policy p (r_state (snd z)) (b_noise b (fst z)) in temperature c s * logp - pessimistic q (s_q1 s') (s_q2 s') (r_state (snd z)) a) (numbered (b_rows b)))) /\
  (forall i, s_t1 s' i = (1 - sc_tau c) * s_t1 s i + sc_tau c * s_q1 s' i) /\ (forall i, s_t2 s' i = (1 - sc_tau c) * s_t2 s i + sc_tau c * s_q2 s' i).
Proof. exact @sac_update_ok. Qed.
(** The loss of the critics is never negative and is 0 exactly for perfect predictions. *)
Theorem C87_critic_loss : forall ys vs, ys <> [] -> length ys = length vs -> 0 <= mean_squared_error ys vs /\ (mean_squared_error ys vs = 0 <-> ys = vs).
Proof. exact mse_ok. Qed.
(** After any number of updates every parameter of the target networks is the exponential moving
    average of the values that the critics had after each of the updates. *)
Theorem C87_target_networks : forall St Ac No (q : params -> St -> Ac -> R) (policy : params -> St -> No -> Ac * R) c s bs i,
  s_t1 (sac_updates q policy c s bs) i = moving_average (sc_tau c) (s_t1 s i) (length bs) (fun k => s_q1 (sac_updates q policy c s (firstn (S k) bs)) i) /\
  s_t2 (sac_updates q policy c s bs) i = moving_average (sc_tau c) (s_t2 s i) (length bs) (fun k => s_q2 (sac_updates q policy c s (firstn (S k) bs)) i).
Proof. exact @targets_average. Qed.
(** Such an average stays within any bounds that hold for the values, if tau is in [0, 1]. *)
Theorem C87_average_bounds : forall tau x n v lo hi, 0 <= tau <= 1 -> lo <= x <= hi -> (forall k, (k < n)%nat -> lo <= v k <= hi) -> lo <= moving_average tau x n v <= hi.
Proof. exact ma_range. Qed.
(** With an entropy target, the optimizer of the temperature gets a loss whose derivative is
    negative exactly if the estimated entropy of the policy before the update is below the
    target: any step downhill raises the temperature exactly then.  The temperature stays positive. *)
Theorem C87_temperature : forall St Ac No (q : params -> St -> Ac -> R) (policy : params -> St -> No -> Ac * R) c s b h, sc_entropy_target c = Some h -> b_rows b <> [] ->
  exists l g, let s' := sac_update q policy c s b in let entropy := - mean (drawn_log_probs policy (s_pol s) (b_noise b) (b_rows b)) in
    s_log_temp s' = sc_optt c (s_ht s) (s_log_temp s) l /\ s_ht s' = l :: s_ht s /\ derivable_pt_lim l (s_log_temp s) g /\
    (g < 0 <-> entropy < h) /\ (0 < g <-> h < entropy) /\
    ((s_log_temp s' - s_log_temp s) * g < 0 -> (temperature c s < temperature c s' <-> entropy < h)) /\
    (s_log_temp s' = s_log_temp s -> temperature c s' = temperature c s) /\
    0 < temperature c s'.
Proof. exact @temperature_ok. Qed.
(** The temperature starts at the given value and without an entropy target it never changes. *)
Theorem C87_initial_temperature : forall St Ac No (q : params -> St -> Ac -> R) (policy : params -> St -> No -> Ac * R) c,
  (forall q1 q2 pol, 0 < sc_initial c -> temperature c (sac_init c q1 q2 pol) = sc_initial c) /\
  (sc_entropy_target c = None -> forall s bs, temperature c (sac_updates q policy c s bs) = sc_initial c).
Proof. exact (fun St Ac No q policy c => conj (temperature_start c) (fun H s bs => temperature_fixed q policy c s bs H)). Qed.
(** Over finitely many actions, the expected policy loss in a state is smallest exactly for the
    Boltzmann distribution of the smaller critic values at the given temperature. *)
Theorem C87_best_policy : forall St Ac (q : params -> St -> Ac -> R) (act : nat -> Ac) c s (x : row St Ac) prm p,
  p <> [] -> probability p -> 0 < temperature c s ->
  let alpha := temperature c s in
  let vs := map (fun j => pessimistic q (s_q1 s) (s_q2 s) (r_state x) (act j) / alpha) (seq 0 (length p)) in
  let e := expected_loss p (fun j => sac_policy_loss q (table_policy act p) c (fun _ => j) [x] s prm) in
  - alpha * logsumexp vs <= e /\ (e = - alpha * logsumexp vs <-> p = softmax vs).
Proof. exact best_policy. Qed.
(** The burn-in actions are used exactly until the first update of the policy; for TD3 this is when
    the number of updates reaches the delay. *)
Theorem C87_burnin : forall St Ac No (q : params -> St -> Ac -> R) (policy : params -> St -> No -> Ac * R) (bs : list (@minibatch St Ac No)) q1 q2 pol,
  (forall c, training_chooser true (length (s_hp (sac_updates q policy c (sac_init c q1 q2 pol) bs))) = BurnIn <-> bs = []) /\
  (forall c, (tc_delay c <> 0)%nat -> (training_chooser true (length (d_hp (td3_updates_full q policy c (td3_init q1 q2 pol) bs))) = BurnIn <-> (length bs < tc_delay c)%nat)) /\
  (forall n, training_chooser false n = Policy).
Proof. exact (fun St Ac No q policy bs q1 q2 pol => conj (fun c => sac_burnin q policy c q1 q2 pol bs) (conj (fun c => td3_burnin q policy c q1 q2 pol bs) chooser_none)). Qed.
(** One TD3 update: both critics get the mean squared error to the same targets, made from the smoothed
    action of the target policy and the smaller target value; at every delay-th update the
    policy gets minus the mean value of the updated first critic and the three target networks move
    towards the updated networks; at the others policy and targets do not change. *)
Theorem C87_td3_update : forall St Ac No (q : params -> St -> Ac -> R) (policy : params -> St -> No -> Ac * R) c s b, (tc_delay c <> 0)%nat -> exists ys l1 l2, let s' := td3_update_full q policy c s b in
  length ys = length (b_rows b) /\
  (forall k x, nth_error (b_rows b) k = Some x -> let a := tc_smooth c (b_next_noise b) k (fst (policy (d_tp s) (r_next x) (b_next_noise b k))) in
     nth_error ys k = Some (bootstrapped x (pessimistic q (d_t1 s) (d_t2 s) (r_next x) a))) /\
  (d_q1 s' = tc_opt1 c (d_h1 s) (d_q1 s) l1 /\ d_h1 s' = l1 :: d_h1 s /\ forall p, l1 p = mean_squared_error ys (predictions q p (b_rows b))) /\
  (d_q2 s' = tc_opt2 c (d_h2 s) (d_q2 s) l2 /\ d_h2 s' = l2 :: d_h2 s /\ forall p, l2 p = mean_squared_error ys (predictions q p (b_rows b))) /\
  if Nat.eqb (S (length (d_h1 s)) mod tc_delay c) 0 then
    (exists lp, d_pol s' = tc_optp c (d_hp s) (d_pol s) lp /\ d_hp s' = lp :: d_hp s /\
       forall p, lp p = - mean (map (fun z => q (d_q1 s') (r_state (snd z)) (fst (policy p (r_state (snd z)) (b_noise b (fst z))))) (numbered (b_rows b)))) /\
    (forall i, d_t1 s' i = (1 - tc_tau c) * d_t1 s i + tc_tau c * d_q1 s' i /\ d_t2 s' i = (1 - tc_tau c) * d_t2 s i + tc_tau c * d_q2 s' i /\ d_tp s' i = (1 - tc_tau c) * d_tp s i + tc_tau c * d_pol s' i)
  else d_pol s' = d_pol s /\ d_hp s' = d_hp s /\ d_t1 s' = d_t1 s /\ d_t2 s' = d_t2 s /\ d_tp s' = d_tp s.
Proof. exact @td3_ok. Qed.
(** After n updates of a new TD3 agent the policy has been updated n / delay times. *)
Theorem C87_td3_count : forall St Ac No (q : params -> St -> Ac -> R) (policy : params -> St -> No -> Ac * R) c bs q1 q2 pol, (tc_delay c <> 0)%nat ->
  let s := td3_updates_full q policy c (td3_init q1 q2 pol) bs in length (d_h1 s) = length bs /\ length (d_hp s) = (length bs / tc_delay c)%nat.
Proof. exact @td3_count. Qed.
(** The default smoothing keeps actions in [-1, 1], moves them by at most 1/2 and by at most the noise, and
    adds exactly the noise where neither bound is reached. *)
Theorem C87_smoothing : forall a z, -1 <= default_smoothing a z <= 1 /\ (-1 <= a <= 1 -> Rabs (default_smoothing a z - a) <= 1 / 2 /\ Rabs (default_smoothing a z - a) <= Rabs z) /\ (-(1/2) <= z <= 1/2 -> -1 <= a + z <= 1 -> default_smoothing a z = a + z).
Proof. exact smoothing_ok. Qed.
(** REFUTED: that TD3 makes n_times_update updates at each update time, as DQN and DDPG do.  It
    makes one, whatever the argument. *)
Theorem C87_n_times_update_refuted : forall minibatch start times interval u len iteration, td3_updater minibatch start times interval = Ok u -> (start <= len)%nat -> (interval <> 0)%Z -> (iteration mod interval = 0)%Z ->
  update_if_necessary u len 0 iteration = Ok [RqSample minibatch].
Proof. exact td3_times. Qed.
Print Assumptions C87_sac_update.
Print Assumptions C87_critic_loss.
Print Assumptions C87_target_networks.
Print Assumptions C87_average_bounds.
Print Assumptions C87_temperature.
Print Assumptions C87_initial_temperature.
Print Assumptions C87_best_policy.
Print Assumptions C87_burnin.
Print Assumptions C87_td3_update.
Print Assumptions C87_td3_count.
Print Assumptions C87_smoothing.
Print Assumptions C87_n_times_update_refuted.

(** A one-parameter critic, one terminal and one other transition: the targets, the losses
    and a step of gradient descent on them. *)
Definition ex_q (p : params) (s a : R) : R := p 0%nat * s + a.
Definition ex_pol (p : params) (s : R) (z : R) : R * R := (p 0%nat * s + z, - 1).
Definition ex_opt : optimizer := fun _ p l => fun i => p i + (l p - l (fun _ => p 0%nat + 1)).
Definition ex_conf : sac_conf := mk_sac_conf (1 / 2) 1 (Some 2) ex_opt ex_opt ex_opt (fun _ t l => t + 1).
Definition ex_batch : @minibatch R R R := mk_minibatch [mk_row 1 0 5 (1 / 2) true 7; mk_row 1 1 2 (1 / 2) false 3] (fun _ => 0) (fun _ => 0).
Example C87_example : let s := sac_update ex_q ex_pol ex_conf (sac_init ex_conf (fun _ => 1) (fun _ => 2) (fun _ => 0)) ex_batch in
  s_q1 s 0%nat = 1 + (((5 - 1) ^ 2 + (4 - 2) ^ 2) / 2 / 2 - ((5 - 2) ^ 2 + (4 - 3) ^ 2) / 2 / 2) /\ s_t1 s 0%nat = (1 + s_q1 s 0%nat) / 2 /\
  temperature ex_conf s = exp 1 /\ mean (drawn_log_probs ex_pol (fun _ => 0) (b_noise ex_batch) (b_rows ex_batch)) = - 1 /\ length (s_hp s) = 1%nat.
Proof.
  cbv zeta. assert (T : temperature ex_conf (sac_init ex_conf (fun _ => 1) (fun _ => 2) (fun _ => 0)) = 1) by (apply temperature_start; cbn; lra).
  split; [|split; [|split; [|split]]].
  - unfold sac_update, sac_sync, sac_update_p, sac_update_q. cbn [ex_conf sc_entropy_target s_q1 sac_init sc_opt1 s_h1 ex_opt].
    unfold ex_opt, sac_q_loss, sac_target, mean_rows. fold ex_conf. change (mk_sac (fun _ : nat => 1) (fun _ : nat => 2) (fun _ : nat => 1) (fun _ : nat => 2) (fun _ : nat => 0) (ln (sc_initial ex_conf)) [] [] [] []) with (sac_init ex_conf (fun _ => 1) (fun _ => 2) (fun _ => 0)).
    rewrite ?T. cbn [ex_batch b_rows sum_rows length INR ex_pol s_pol sac_init s_t1 s_t2 r_next r_state r_action r_reward r_discount r_terminal terminal_value b_next_noise]. unfold ex_pol, ex_q. rewrite ?T. rewrite !Rmin_left by lra. field.
  - unfold sac_update, sac_sync. cbn. unfold soft_copy. cbn. field.
  - unfold temperature, sac_update, sac_sync, sac_update_p. cbn. rewrite ln_1. f_equal. ring.
  - unfold mean, drawn_log_probs, numbered. cbn. field.
  - reflexivity.
Qed.
Example C87_best_example : probability [1 / 2; 1 / 2].
Proof. split; [intros x [<-|[<-|[]]]; lra|cbn; lra]. Qed.
