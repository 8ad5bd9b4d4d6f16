(** Policies over finitely many actions, averages over sampled actions, and what the actor and the critic of PGT aim at. *)
From Coq Require Import Reals List Arith.
From Verif Require Import Base.PyBase Model.Distributions Model.ReplayUpdater Model.Targets Model.PGT Spec.SumSpec Spec.PolicyGradientSpec Spec.BellmanSpec.
Import ListNotations.
Local Open Scope R_scope.

Definition finite_entropy (n : nat) (p : nat -> R) : R := - sum_below n (fun a => p a * ln (p a)).
Definition finite_policy {S'} (n : nat) (p : S' -> nat -> R) (mode : S' -> nat) (s : S') : policy_out nat := mk_policy_out (fun a => ln (p s a)) (finite_entropy n (p s)) (mode s).
(** The average over actions that are sampled independently in all states. *)
Fixpoint over_samples {S'} (n : nat) (p : S' -> nat -> R) (states : list S') (f : list nat -> R) : R :=
  match states with [] => f [] | s :: states => sum_below n (fun a => p s a * over_samples n p states (fun l => f (a :: l))) end.
(** What a state is worth if actions are chosen with [p] and then worth [q], plus [beta] times the entropy. *)
Definition regularized_value (n : nat) (beta : R) (p q : nat -> R) : R := sum_below n (fun a => p a * q a) + beta * finite_entropy n p.
(** Policies with a logit per action. *)
Definition softmax_of (n : nat) (logits : nat -> R) (a : nat) : R := exp (logits a) / sum_below n (fun b => exp (logits b)).
Definition bump (logits : nat -> R) (k : nat) (t : R) (a : nat) : R := if Nat.eqb a k then logits a + t else logits a.

Section Critic.
  Context {St : Type}.
  Variable m : mdp St.
  Variable gamma : R.
  Variable final : St.
  (** The average target of PGT's critic over the outcomes of an action and the sampled next action: batches of one row. *)
  Definition pgt_backup (p : St -> nat -> R) (q : St -> nat -> R) (s : St) (a : nat) : R :=
    total_of (fun z => o_prob z * sum_below (n_actions m) (fun a' => p (arrives final z) a' *
      hd 0 (pgt_targets (A := nat) (fun _ => a') q (mk_batch [] [] [o_reward z] [arrives final z] [ended z] [gamma] None)))) (outcomes m s a).
End Critic.

(** Two actions that end the episode; the first pays 1. *)
Definition pay_mdp : mdp unit := mk_mdp 2 (fun _ a => match a with O => [(1, 1, None)] | _ => [(1, 0, None)] end).
