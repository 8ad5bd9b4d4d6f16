(** C97: categorical DQN learns the optimal values, in the mean, if the support is wide enough. *)
From Coq Require Import QArith Qreals Reals List Arith Lia.
From Coq Require Import Lqa Lra.
From Verif Require Import Base.PyBase Model.Categorical Model.Distributions Model.Targets Model.CategoricalLoss Spec.SumSpec Spec.WrapperSpec Spec.CategoricalSpec Spec.PolicyGradientSpec Spec.BellmanSpec Spec.CategoricalLearningSpec Proofs.CategoricalLearningProofs.
Import ListNotations.
Local Open Scope nat_scope.

(** The loss of a batch is the sum, mean or weighted sum of the errors that are given to a prioritized replay buffer: the
    cross entropies of the examples. *)
Theorem C97_losses : forall y t w acc, length y = length t ->
  let '(loss, errors) := c_compute_loss y t w acc in
  errors = map (fun p => row_cross_entropy (fst p) (snd p)) (combine y t) /\
  loss = (match w with None => fsum errors | Some w => fsum (zipr Rmult errors w) end / match acc with Mean => INR (length y) | Sum => 1 end)%R.
Proof. exact losses. Qed.
(** These are never negative for probabilities. *)
Theorem C97_priorities : forall y t, (forall p, In p y -> 0 <= p)%R -> (forall p, In p t -> 0 <= p)%R -> (0 <= row_cross_entropy y t)%R.
Proof. exact row_nonneg. Qed.
(** Fitting the targets of all outcomes of all actions is possible, and gives distributions again. *)
Theorem C97_fit : forall St (m : qmdp St) z gamma final v0 dz, evenly_spaced v0 dz z -> q_proper m -> forall D, dist_table m z D ->
  (forall s a, exists rows, targets m z gamma final D s a = Ok rows /\ length rows = length (q_outcomes m s a)) /\ dist_table m z (fit m z gamma final D).
Proof.
  exact (fun St m z gamma final v0 dz HZ HP D HD => conj (fun s a => match targets_good m z gamma final v0 dz HZ HP D s a HD with ex_intro _ rows (conj E F) => ex_intro _ rows (conj E (eq_sym (CategoricalProofs.Forall2_len F))) end) (fit_table m z gamma final v0 dz HZ HP D HD)).
Qed.
(** No other distribution has a smaller average loss than the fit, up to the clipping of probabilities at 1e-10 in the loss. *)
Theorem C97_best_fit : forall St (m : qmdp St) z gamma final v0 dz, evenly_spaced v0 dz z -> q_proper m -> forall D s a y, a < q_actions m -> dist_table m z D ->
  length y = length z -> (forall p, In p y -> 0 <= p)%R -> fsum y = 1%R ->
  (average_loss m z gamma final D s a (map Q2R (nth a (fit m z gamma final D s) [])) <= average_loss m z gamma final D s a y + INR (length z) / 10 ^ 10)%R.
Proof. exact @best_fit. Qed.
(** If returns from atoms stay within the support, the means of the fit are the targets of DQN for the means before, *)
Theorem C97_means : forall St (m : qmdp St) z gamma final v0 dz, evenly_spaced v0 dz z -> q_proper m -> forall D s,
  closed_support m z gamma v0 (atom v0 dz (length z - 1)) -> dist_table m z D ->
  means z (fit m z gamma final D) s = backup (real m) (Q2R gamma) final (fun _ => q_maximum) (means z D) s.
Proof. exact @means_fit. Qed.
(** so after k rounds of fitting the means are the optimal action values, up to the width of the support times gamma^k, *)
Theorem C97_learns : forall St (m : qmdp St) z gamma final v0 dz, evenly_spaced v0 dz z -> q_proper m -> forall b,
  (forall s a o, In o (q_outcomes m s a) -> (Rabs (Q2R (snd (fst o))) <= b)%R) -> (0 <= gamma /\ gamma < 1)%Q ->
  closed_support m z gamma v0 (atom v0 dz (length z - 1)) -> forall v D k s a,
  optimal_value (real m) (Q2R gamma) final v -> dist_table m z D -> a < q_actions m ->
  (Rabs (nth a (means z (refit m z gamma final k D) s) 0 - lookahead (real m) (Q2R gamma) final v s a) <= Q2R gamma ^ k * (Q2R (atom v0 dz (length z - 1)) - Q2R v0))%R.
Proof. exact @learns. Qed.
(** and the greedy policy loses at most 2 / (1 - gamma) times that. *)
Theorem C97_policy : forall St (m : qmdp St) z gamma final v0 dz, evenly_spaced v0 dz z -> q_proper m -> forall b,
  (forall s a o, In o (q_outcomes m s a) -> (Rabs (Q2R (snd (fst o))) <= b)%R) -> (0 <= gamma /\ gamma < 1)%Q ->
  closed_support m z gamma v0 (atom v0 dz (length z - 1)) -> forall v D j w d k s,
  optimal_value (real m) (Q2R gamma) final v -> dist_table m z D -> (0 <= d)%R -> (forall s, v s - d <= w s)%R ->
  (v s - 2 * (Q2R gamma ^ j * (Q2R (atom v0 dz (length z - 1)) - Q2R v0)) / (1 - Q2R gamma) - Q2R gamma ^ k * d
   <= expected_return (real m) (Q2R gamma) w (greedy_policy (means z (refit m z gamma final j D))) k s)%R.
Proof. exact @learned_policy. Qed.
(** The support is wide enough if it reaches the largest possible return, max reward / (1 - gamma), in both directions. *)
Theorem C97_support : forall St (m : qmdp St) z gamma v0 dz, evenly_spaced v0 dz z -> forall c,
  let vmax := atom v0 dz (length z - 1) in
  (0 <= gamma /\ gamma < 1)%Q -> (c <= (1 - gamma) * vmax)%Q -> ((1 - gamma) * v0 <= - c)%Q -> (0 <= c)%Q ->
  (forall s a o, a < q_actions m -> In o (q_outcomes m s a) -> (- c <= snd (fst o) /\ snd (fst o) <= c)%Q) -> closed_support m z gamma v0 vmax.
Proof. exact @support. Qed.
(** It is not enough that it has all optimal action values: a fair bet between 2 and 0 is worth 1, but with a support from 0 to 1
    its learned mean is 1/2, and the agent takes 3/4 for sure. *)
Theorem C97_narrow_refuted : evenly_spaced 0 1 [0%Q; 1%Q] /\ q_proper bet /\ optimal_value (real bet) (/ 2) tt (fun _ => 1%R) /\
  (forall v, lookahead (real bet) (/ 2) tt v tt 0 = 1%R /\ lookahead (real bet) (/ 2) tt v tt 1 = (3 / 4)%R) /\
  forall D k, dist_table bet [0%Q; 1%Q] D -> 0 < k -> means [0%Q; 1%Q] (refit bet [0%Q; 1%Q] (1 # 2) tt k D) tt = [/ 2; 3 / 4]%R.
Proof. exact (conj bet_spaced (conj bet_proper (conj bet_optimal (conj bet_look bet_learned)))). Qed.
Print Assumptions C97_losses.
Print Assumptions C97_priorities.
Print Assumptions C97_fit.
Print Assumptions C97_best_fit.
Print Assumptions C97_means.
Print Assumptions C97_learns.
Print Assumptions C97_policy.
Print Assumptions C97_support.
Print Assumptions C97_narrow_refuted.

(** With atoms up to 4 the hypotheses are met for the bet, and the means of the first fit are right. *)
Definition wide : list Q := [(-4)%Q; 0%Q; 4%Q].
Example C97_example : evenly_spaced (-4) 4 wide /\ closed_support bet wide (1 # 2) (-4) (atom (-4) 4 2) /\
  dist_table bet wide (fun _ => [[1%Q; 0%Q; 0%Q]; [0%Q; 0%Q; 1%Q]]) /\
  map (fun d => Qred (meanv wide d)) (fit bet wide (1 # 2) tt (fun _ => [[1%Q; 0%Q; 0%Q]; [0%Q; 0%Q; 1%Q]]) tt) = [1%Q; 3 # 4].
Proof.
  assert (W : evenly_spaced (-4) 4 wide).
  { split; [reflexivity|]. split; [cbn; lia|]. intros [|[|[|i]]] x E; cbn in E; [injection E as <-; reflexivity..|destruct i; discriminate]. }
  split; [exact W|]. split; [|split].
  - apply (@C97_support _ bet wide (1 # 2) (-4) 4 W 2); try (vm_compute; discriminate).
    + split; vm_compute; [discriminate|reflexivity].
    + intros s [|a] o _ Ho; cbn in Ho; repeat (destruct Ho as [<-|Ho]; [split; vm_compute; discriminate|]); destruct Ho.
  - intros s. split; [reflexivity|]. intros d [<-|[<-|[]]]; (split; [reflexivity|]); split; try reflexivity; intros p Hp; cbn in Hp; repeat (destruct Hp as [<-|Hp]; [vm_compute; discriminate|]); destruct Hp.
  - vm_compute. reflexivity.
Qed.
