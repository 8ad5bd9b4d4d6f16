(** Entropy-regularised control: the reward of an action is increased by [tau] times its surprise,
    minus the logarithm of its probability.  Soft actor-critic (soft_actor_critic.py) and path
    consistency learning (pcl.py) aim at this.  Sets of actions are finite here. *)
From Coq Require Import Reals List Arith.
From Verif Require Import Base.PyBase Model.ReplayUpdater Model.Targets Model.PCL Spec.SumSpec Spec.PolicyGradientSpec Spec.BellmanSpec Spec.PCLSpec.
Import ListNotations.
Local Open Scope R_scope.

Section Soft.
  Context {St : Type}.
  Variable m : mdp St.
  Variables gamma tau : R.
  Variable final : St.
  Notation n := (n_actions m).
  Definition distribution (p : St -> nat -> R) : Prop := forall s, (forall a, 0 <= p s a) /\ sum_below n (p s) = 1.
  (** What a state is worth when [q a] is what comes of action [a]: its average and the entropy. *)
  Definition soft_average (p q : nat -> R) : R := sum_below n (fun a => p a * (q a - tau * ln (p a))).
  (** The expected discounted sum of rewards and surprises of at most [k] steps; the state after that
      is worth [w]. *)
  Fixpoint soft_return (w : St -> R) (p : St -> nat -> R) (k : nat) (s : St) : R :=
    match k with O => w s | S k => soft_average (p s) (lookahead m gamma final (soft_return w p k) s) end.
  (** The value of following [p] for ever. *)
  Definition soft_value (p : St -> nat -> R) (v : St -> R) : Prop :=
    (exists b, forall s, Rabs (v s) <= b) /\ forall s, v s = soft_average (p s) (lookahead m gamma final v s).
  (** The best value. *)
  Definition soft_optimal (v : St -> R) : Prop :=
    (exists b, forall s, Rabs (v s) <= b) /\ forall s, v s = tau * ln (sum_below n (fun a => exp (lookahead m gamma final v s a / tau))).
  (** The policy that goes with it. *)
  Definition soft_policy (v : St -> R) (s : St) (a : nat) : R := exp ((lookahead m gamma final v s a - v s) / tau).

  (** The target of SAC for one transition and one sampled action: a batch of one row. *)
  Definition sac_sample (p q1 q2 : St -> nat -> R) (z : R * R * option St) (a' : nat) : R :=
    hd 0 (sac_targets (A := nat) tau (fun s => (a', ln (p s a'))) q1 q2
      (mk_batch [] [] [o_reward z] [arrives final z] [ended z] [gamma] None)).
  (** Its average over the outcomes of an action and the sampled next actions: what both Q-functions are
      fitted to. *)
  Definition sac_backup (p q1 q2 : St -> nat -> R) (s : St) (a : nat) : R :=
    total_of (fun z => o_prob z * sum_below n (fun a' => p (arrives final z) a' * sac_sample p q1 q2 z a')) (outcomes m s a).
  (** Repeatedly, with target networks that are copies of the fitted ones. *)
  Fixpoint sac_iterate (p : St -> nat -> R) (k : nat) (q1 q2 : St -> nat -> R) : (St -> nat -> R) * (St -> nat -> R) :=
    match k with
    | O => (q1, q2)
    | S k => let qs := sac_iterate p k q1 q2 in (sac_backup p (fst qs) (snd qs), sac_backup p (fst qs) (snd qs))
    end.
  (** The loss of SAC's policy in a state, averaged over its actions (C87). *)
  Definition sac_state_loss (p q : nat -> R) : R := sum_below n (fun a => p a * (tau * ln (p a) - q a)).

  (** The transitions that [m] can make one after another. *)
  Fixpoint run_of (l : list (ptrans St nat)) : Prop :=
    match l with
    | [] => True
    | x :: l =>
        (pt_action x < n)%nat /\
        (exists z, In z (outcomes m (pt_state x) (pt_action x)) /\ 0 < o_prob z /\ pt_reward x = o_reward z /\ pt_next x = arrives final z /\ pt_terminal x = ended z) /\
        match l with [] => True | y :: _ => pt_terminal x = false /\ pt_state y = pt_next x end /\ run_of l
    end.
  (** Every action has one outcome. *)
  Definition deterministic : Prop := forall s a, exists r next, outcomes m s a = [(1, r, next)].
  (** The model with log probabilities and values, as PCL uses it. *)
  Definition pcl_model (p : St -> nat -> R) (v : St -> R) (s : St) : (nat -> R) * R := (fun a => ln (p s a), v s).
End Soft.

(** One action that pays 1 or takes 1. *)
Definition coin_mdp : mdp unit := mk_mdp 1 (fun _ _ => [(1 / 2, 1, None); (1 / 2, -1, None)]).
(** Two actions: one pays 1 and ends, the other goes on. *)
Definition wait_mdp : mdp unit := mk_mdp 2 (fun _ a => match a with O => [(1, 1, None)] | _ => [(1, 0, Some tt)] end).
