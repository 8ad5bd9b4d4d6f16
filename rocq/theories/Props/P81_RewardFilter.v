(** C81: the reward filters subtract an exponentially weighted average, and the normalising one
    divides by its standard deviation. *)
From Coq Require Import Reals List Arith Lia Lra.
From Verif Require Import Base.PyBase Model.RewardFilter Spec.SumSpec Spec.RewardFilterSpec Proofs.RewardFilterProofs.
Import ListNotations.
Local Open Scope R_scope.

(** After any history, the average filter gives the reward minus the weighted average of all the
    rewards up to it. *)
Theorem C81_average : forall tau rewards i, (i < length rewards)%nat -> nth i (arun tau 0 rewards) 0 = nth i rewards 0 - decayed tau (firstn (S i) rewards).
Proof. exact arun_ok. Qed.
(** The average stays between the smallest and the largest reward, or 0. *)
Theorem C81_average_bounded : forall tau lo hi h, 0 <= tau <= 1 -> (forall r, In r h -> lo <= r <= hi) -> Rmin lo 0 <= decayed tau h <= Rmax hi 0.
Proof. exact decayed_bounds. Qed.
(** A constant reward fades geometrically. *)
Theorem C81_constant : forall tau c n i, (i < n)%nat -> nth i (arun tau 0 (repeat c n)) 0 = c * (1 - tau) ^ (S i).
Proof. exact constant_ok. Qed.
(** What the normalising filter gives after any history.  It fails exactly as long as all the
    rewards were 0. *)
Theorem C81_normalized_partial : forall tau scale eps rewards i, 0 < tau < 1 -> 0 < eps -> (i < length rewards)%nat -> let h := firstn (S i) rewards in
  0 <= decayed_var tau h /\
  (Forall (fun r => r = 0) h -> nth i (nrun tau scale eps ninit rewards) (Raise OutOfFuel) = Raise ZeroDivisionError) /\
  (~ Forall (fun r => r = 0) h -> nth i (nrun tau scale eps ninit rewards) (Raise OutOfFuel) = Ok (scale * (nth i rewards 0 - decayed tau h) / sqrt (Rmin (decayed_var tau h) eps))).
Proof. exact nrun_ok. Qed.
(** REFUTED: that [eps] keeps small rewards small.  However small the first reward is, it becomes
    [scale * sqrt ((1 - tau) / tau)], up to its sign. *)
Theorem C81_small_rewards_refuted : forall tau scale eps r, 0 < tau < 1 -> 0 < eps -> r <> 0 -> tau * (1 - tau) * (r * r) <= eps ->
  exists y, nrun tau scale eps ninit [r] = [Ok y] /\ y * y = scale * scale * ((1 - tau) / tau).
Proof. exact first_small. Qed.
(** REFUTED: that large rewards are normalised.  The filtered rewards are unbounded. *)
Theorem C81_large_rewards_refuted : forall tau scale eps M, 0 < tau < 1 -> 0 < eps -> 0 < scale -> exists r y, nrun tau scale eps ninit [r] = [Ok y] /\ M < y.
Proof. exact unbounded. Qed.
(** REFUTED: that it works for every [tau]: with [tau = 1] every call fails. *)
Theorem C81_tau_one_refuted : forall scale eps s r, 0 < eps -> snd (ncall 1 scale eps s r) = Raise ZeroDivisionError.
Proof. exact tau_one. Qed.
Print Assumptions C81_average.
Print Assumptions C81_average_bounded.
Print Assumptions C81_constant.
Print Assumptions C81_normalized_partial.
Print Assumptions C81_small_rewards_refuted.
Print Assumptions C81_large_rewards_refuted.
Print Assumptions C81_tau_one_refuted.

Example C81_ex_average : arun (1 / 2) 0 [4; 2; 0] = [2; 0; -1].
Proof. cbn. repeat f_equal; field. Qed.
Example C81_ex_bounded : decayed (1 / 2) [4; 2; 0] = 1 /\ Rmin 0 0 <= 1 <= Rmax 4 0.
Proof. unfold decayed. cbn. split; [field|]. split; [rewrite Rmin_left; lra|rewrite Rmax_left; lra]. Qed.
Example C81_ex_constant : arun (1 / 2) 0 [8; 8; 8] = [4; 2; 1].
Proof. cbn. repeat f_equal; field. Qed.
(** A reward of 0 first, then one of 1. *)
Example C81_ex_normalized : exists y, nrun (1 / 2) 1 1 ninit [0; 1] = [Raise ZeroDivisionError; Ok y].
Proof.
  destruct (nrun_ok (1 / 2) 1 1 [0; 1] 0 ltac:(lra) ltac:(lra) ltac:(cbn; lia)) as (_ & A & _). destruct (nrun_ok (1 / 2) 1 1 [0; 1] 1 ltac:(lra) ltac:(lra) ltac:(cbn; lia)) as (_ & _ & B).
  cbn [firstn] in A, B. cbn [nrun] in *. destruct (ncall (1 / 2) 1 1 ninit 0) as [s y]. destruct (ncall (1 / 2) 1 1 s 1) as [s' y']. cbn [nth] in A, B.
  rewrite A by (repeat constructor). rewrite B; [eauto|]. intros F. inversion F as [|? ? _ G]; subst. inversion G; lra.
Qed.
Example C81_ex_small : 0 < / 1000 < 1 /\ / 1000 * (1 - / 1000) * (1 * 1) <= / 10.
Proof. lra. Qed.
