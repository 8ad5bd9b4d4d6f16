(** What an update of an actor-critic agent should be. *)
From Coq Require Import Reals List.
From Verif Require Import Base.PyBase Model.Distributions Model.ActorCritic Spec.SumSpec Spec.DistributionSpec.
Import ListNotations.
Local Open Scope R_scope.

(** The mean of the squared differences between targets and predictions. *)
Definition mean_squared_error (ys vs : list R) : R := mean (map (fun z => (fst z - snd z) ^ 2) (combine ys vs)).
(** The rows of a batch with their numbers. *)
Definition numbered {X} (l : list X) : list (nat * X) := combine (seq 0 (length l)) l.
Definition predictions {St Ac} (q : params -> St -> Ac -> R) (p : params) (batch : list (row St Ac)) : list R :=
  map (fun x => q p (r_state x) (r_action x)) batch.
(** The return of a transition whose next state is worth [v]. *)
Definition bootstrapped {St Ac} (x : row St Ac) (v : R) : R := if r_terminal x then r_reward x else r_reward x + r_discount x * v.
(** The smaller estimate of two critics. *)
Definition pessimistic {St Ac} (q : params -> St -> Ac -> R) (p1 p2 : params) (s : St) (a : Ac) : R := Rmin (q p1 s a) (q p2 s a).
(** Weights of an exponential moving average of [n] values with the oldest first, the start value
    having weight (1 - tau)^n. *)
Definition moving_average (tau start : R) (n : nat) (values : nat -> R) : R :=
  (1 - tau) ^ n * start + sum_below n (fun k => tau * (1 - tau) ^ (n - 1 - k) * values k).
(** The log probabilities of the actions that the policy with parameters [p] draws for a batch. *)
Definition drawn_log_probs {St Ac No} (policy : params -> St -> No -> Ac * R) (p : params) (noise : nat -> No) (batch : list (row St Ac)) : list R :=
  map (fun z => snd (policy p (r_state (snd z)) (noise (fst z)))) (numbered batch).
(** A policy that takes action [act j] with probability [nth j p 0], [j] being its noise. *)
Definition table_policy {St Ac} (act : nat -> Ac) (p : list R) : params -> St -> nat -> Ac * R := fun _ _ j => (act j, ln (nth j p 0)).
(** The expectation of a loss over the draws of such a policy. *)
Definition expected_loss (p : list R) (l : nat -> R) : R := expectation p (map l (seq 0 (length p))).
