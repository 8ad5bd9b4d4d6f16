(** Bellman operators: the averages, over the outcomes of an action, of the targets of Model/Targets.v,
    and what it means to iterate them.  Fitting a large enough network to the targets of all transitions, with
    the target network fixed, gives these averages. *)
From Coq Require Import Reals List Arith.
From Verif Require Import Base.PyBase Model.Distributions Model.Targets Spec.SumSpec Spec.PolicyGradientSpec.
Import ListNotations.
Local Open Scope R_scope.

Section Bellman.
  Context {St : Type}.
  Variable m : mdp St.
  Variable gamma : R.
  (** What is observed when an episode has ended. *)
  Variable final : St.
  Definition ended (z : R * R * option St) : bool := match snd z with None => true | Some _ => false end.
  Definition arrives (z : R * R * option St) : St := match snd z with None => final | Some s' => s' end.
  (** The average target of action [a] in [s] when the next state [s'] is worth [v s']. *)
  Definition lookahead (v : St -> R) (s : St) (a : nat) : R :=
    total_of (fun z => o_prob z * td_row (o_reward z) gamma (ended z) (v (arrives z))) (outcomes m s a).
  (** The same for all actions, when a state [s'] is worth [value s'] of its row of action values. *)
  Definition backup (value : St -> list R -> R) (Q : St -> list R) (s : St) : list R :=
    map (lookahead (fun s' => value s' (Q s')) s) (seq 0 (n_actions m)).
  (** The average targets of (persistent) advantage learning. *)
  Definition al_backup (alpha : R) (Q : St -> list R) (s : St) : list R :=
    map (fun a => total_of (fun z => o_prob z * al_target alpha (td_row (o_reward z) gamma (ended z) (q_maximum (Q (arrives z)))) (Q s) a) (outcomes m s a)) (seq 0 (n_actions m)).
  Definition pal_backup (alpha : R) (Q : St -> list R) (s : St) : list R :=
    map (fun a => total_of (fun z => o_prob z * pal_target alpha (td_row (o_reward z) gamma (ended z) (q_maximum (Q (arrives z)))) (Q s) (Q (arrives z)) a) (outcomes m s a)) (seq 0 (n_actions m)).
  Fixpoint iterate (T : (St -> list R) -> St -> list R) (k : nat) (Q : St -> list R) : St -> list R :=
    match k with O => Q | S k => T (iterate T k Q) end.

  (** A value per action, and how far two tables are apart. *)
  Definition table (Q : St -> list R) : Prop := forall s, length (Q s) = n_actions m.
  Definition within (d : R) (Q Q' : St -> list R) : Prop := forall s a, (a < n_actions m)%nat -> Rabs (nth a (Q s) 0 - nth a (Q' s) 0) <= d.
  Definition bounded (b : R) (Q : St -> list R) : Prop := forall s a, (a < n_actions m)%nat -> Rabs (nth a (Q s) 0) <= b.
  (** A process with probabilities, at least one action and bounded rewards. *)
  Definition regular (b : R) : Prop :=
    proper m /\ (0 < n_actions m)%nat /\ forall s a z, In z (outcomes m s a) -> 0 <= o_prob z /\ Rabs (o_reward z) <= b.
  (** The value of every state is that of its best action. *)
  Definition optimal_value (v : St -> R) : Prop :=
    (exists b, forall s, Rabs (v s) <= b) /\
    forall s, (forall a, (a < n_actions m)%nat -> lookahead v s a <= v s) /\ exists a, (a < n_actions m)%nat /\ v s = lookahead v s a.
End Bellman.
(** A summary of a row that moves no more than its entries. *)
Definition nonexpansive (n : nat) (value : list R -> R) : Prop :=
  forall q q' d, length q = n -> length q' = n -> (forall a, (a < n)%nat -> Rabs (nth a q 0 - nth a q' 0) <= d) -> Rabs (value q - value q') <= d.
(** The policy that always takes the greedy action. *)
Definition greedy_policy {St} (Q : St -> list R) (s : St) (a : nat) : R := if Nat.eqb a (q_greedy (Q s)) then 1 else 0.
(** The average of a row under a policy, as for SARSA with an explorer that follows it. *)
Definition policy_average (p : nat -> R) (q : list R) : R := sum_below (length q) (fun a => p a * nth a q 0).
