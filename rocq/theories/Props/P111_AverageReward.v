(** C111: A3C's average reward. *)
From Coq Require Import Reals List Lra Lia.
From Verif Require Import Model.AverageReward Spec.AverageRewardSpec Proofs.AverageRewardProofs.
Import ListNotations.
Local Open Scope R_scope.

(** The target of each step is the discounted sum of what the steps from it on earned above the average, from the bootstrap value; the advantage is the target less the
    value.  The average is the one in force when the step is dealt with: the steps are dealt with from the last to the first, and each moves the average by tau times its
    advantage, so that one update uses a different average for each of its steps. *)
Theorem C111_returns : forall gamma tau b rho steps, let '(rho', used) := average_update gamma tau b rho steps in
  let advantages := map snd used in
  length used = length steps /\
  (forall k, (k < length steps)%nat ->
    let ret := return_above gamma b (skipn k (map fst steps)) (skipn k (averages tau rho advantages)) in
    nth k used (0, 0) = (ret, ret - snd (nth k steps (0, 0)))) /\
  rho' = rho + tau * total advantages.
Proof. exact average_returns. Qed.
Print Assumptions C111_returns.

(** Without discounting, nothing is left to learn from an update, all its advantages being zero, exactly if the values solve the differential Bellman equation with the
    current average; the update then leaves the average alone. *)
Theorem C111_rest : forall tau b rho steps, let '(rho', used) := average_update 1 tau b rho steps in
  (differential rho b steps <-> Forall (fun p => snd p = 0) used) /\ (differential rho b steps -> rho' = rho).
Proof. exact average_rest. Qed.
Print Assumptions C111_rest.

(** If so along a trajectory that comes back to the value it started from, then the average is the mean reward of the trajectory. *)
Theorem C111_mean : forall rho r v steps, differential rho v ((r, v) :: steps) ->
  rho = total (map fst ((r, v) :: steps)) / INR (length ((r, v) :: steps)).
Proof. exact cycle_mean. Qed.
Print Assumptions C111_mean.

(** In a task with one state that always pays r, with any value of the state, the average comes closer to r by a factor of 1 - tau at least with each update of n steps, as
    long as tau n (n + 1) is at most 2: with the default tau of 0.01, for updates of up to 13 steps. *)
Theorem C111_converges_partial : forall tau r v n rho k, 0 < tau -> (1 <= n)%nat -> tau * (INR n * (INR n + 1)) <= 2 ->
  Rabs (average_after 1 tau rho (one_state k n r v) - r) <= (1 - tau) ^ k * Rabs (rho - r).
Proof. exact average_converges. Qed.
Print Assumptions C111_converges_partial.

(** Refuted: the average converges however long the updates are.  With the default tau of 0.01 and updates of 31 steps it leaves every bound in the same task, from every
    start but the right one. *)
Theorem C111_diverges_refuted : forall r v rho, rho <> r -> forall M, exists K, forall k, (K <= k)%nat ->
  M < Rabs (average_after 1 (1 / 100) rho (one_state k 31 r v) - r).
Proof. exact average_diverges. Qed.
Print Assumptions C111_diverges_refuted.

(** Two steps that earn 1 and 3, values 0 and 1, tau = 1/2, from an average of 0: the last step has target 3 and advantage 2 and moves the average to 1, which is what the
    first step subtracts. *)
Example C111_returns_case : average_update 1 (1 / 2) 0 0 [(1, 0); (3, 1)] = (5 / 2, [(3, 3); (3, 2)]).
Proof. unfold average_update, average_round. cbn [fold_right fst snd].
  apply f_equal2; [lra|]. apply f_equal2; [apply f_equal2; lra|]. apply f_equal2; [apply f_equal2; lra|reflexivity]. Qed.
(** A cycle of two states that pay 1 and 3: the values 0 and 1 solve the equation with an average of 2. *)
Example C111_mean_case : differential 2 0 [(1, 0); (3, 1)] /\ 2 = total (map fst [(1, 0); (3, 1)]) / INR 2.
Proof. split; cbn; repeat split; lra. Qed.
(** The default tau and 13 steps meet the hypotheses of the convergence theorem. *)
Example C111_converges_case : 0 < 1 / 100 /\ (1 <= 13)%nat /\ 1 / 100 * (INR 13 * (INR 13 + 1)) <= 2.
Proof. replace (INR 13) with 13 by (cbn; lra). repeat split; try lra; lia. Qed.
(** An agent starts from an average of 0, which is not right if steps pay 1. *)
Example C111_diverges_case : 0 <> 1.
Proof. lra. Qed.
