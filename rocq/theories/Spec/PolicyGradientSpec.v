(** Episodes of a Markov decision process under a policy, with their probabilities, and the expected
    return.  States can be whole histories, so that nothing is lost by assuming Markov processes. *)
From Coq Require Import Reals List Arith.
From Verif Require Import Base.PyBase Spec.SumSpec Model.PolicyGradient.
Import ListNotations.
Local Open Scope R_scope.

(** [outcomes s a]: the possible results of action [a]: probability, reward and the next state,
    or [None] for the end of the episode. *)
Record mdp (St : Type) := mk_mdp { n_actions : nat; outcomes : St -> nat -> list (R * R * option St) }.
Arguments mk_mdp {St}. Arguments n_actions {St}. Arguments outcomes {St}.
Definition o_prob {St} (z : R * R * option St) : R := fst (fst z).
Definition o_reward {St} (z : R * R * option St) : R := snd (fst z).
Definition proper {St} (m : mdp St) : Prop := forall s a, total_of o_prob (outcomes m s a) = 1.
(** A policy with one parameter: [pi theta s a] is the probability of [a] in [s]; [dpi] its
    derivative at [theta0]. *)
Definition is_policy {St} (m : mdp St) (pi : R -> St -> nat -> R) : Prop :=
  forall theta s, (forall a, 0 < pi theta s a) /\ sum_below (n_actions m) (pi theta s) = 1.
Definition has_derivative {St} (pi : R -> St -> nat -> R) (theta0 : R) (dpi : St -> nat -> R) : Prop :=
  forall s a, derivable_pt_lim (fun theta => pi theta s a) theta0 (dpi s a).

(** The expected discounted return of at most [n] steps from [s]; the state after [n] steps is
    worth [v s]. *)
Fixpoint expected_return {St} (m : mdp St) (gamma : R) (v : St -> R) (p : St -> nat -> R) (n : nat) (s : St) : R :=
  match n with
  | O => v s
  | S n => sum_below (n_actions m) (fun a => p s a * total_of (fun z => o_prob z * (o_reward z + gamma * match snd z with None => 0 | Some s' => expected_return m gamma v p n s' end)) (outcomes m s a))
  end.
(** An episode, or the part of it in [n] steps: its probability, its steps (state, action, reward) and the state after it,
    [None] if it has ended. *)
Record episode (St : Type) := mk_episode { e_prob : R; e_steps : list (St * nat * R); e_last : option St }.
Arguments mk_episode {St}. Arguments e_prob {St}. Arguments e_steps {St}. Arguments e_last {St}.
Fixpoint all_episodes {St} (m : mdp St) (p : St -> nat -> R) (n : nat) (s : St) : list (episode St) :=
  match n with
  | O => [mk_episode 1 [] (Some s)]
  | S n => flat_map (fun a => flat_map (fun z : R * R * option St =>
      map (fun e => mk_episode (p s a * o_prob z * e_prob e) ((s, a, o_reward z) :: e_steps e) (e_last e))
        match snd z with None => [mk_episode 1 [] None] | Some s' => all_episodes m p n s' end) (outcomes m s a)) (seq 0 (n_actions m))
  end.
(** The expectation of a quantity over the episodes. *)
Definition over_episodes {St} (m : mdp St) (p : St -> nat -> R) (n : nat) (s : St) (f : episode St -> R) : R :=
  total_of (fun e => e_prob e * f e) (all_episodes m p n s).

(** The sum over the visited states of the derivative of the expected return from that state, when only the
    choice of the action in that state changes. *)
Fixpoint local_gradient {St} (m : mdp St) (gamma : R) (v : St -> R) (p dp : St -> nat -> R) (n : nat) (s : St) : R :=
  match n with
  | O => 0
  | S n => sum_below (n_actions m) (fun a =>
      dp s a * total_of (fun z => o_prob z * (o_reward z + gamma * match snd z with None => 0 | Some s' => expected_return m gamma v p n s' end)) (outcomes m s a) +
      p s a * total_of (fun z => o_prob z * match snd z with None => 0 | Some s' => local_gradient m gamma v p dp n s' end) (outcomes m s a))
  end.

Section Loss.
  Context {St : Type}.
  Variable pi : R -> St -> nat -> R.
  Variable entropy : R -> St -> R.
  Variable value : R -> St -> R.
  (** What REINFORCE remembers of an episode. *)
  Definition episode_actions (e : episode St) : list taken := map (fun z => mk_taken (fun th => ln (pi th (fst (fst z)) (snd (fst z)))) (fun th => entropy th (fst (fst z)))) (e_steps e).
  Definition episode_rewards (e : episode St) : list R := map snd (e_steps e).
  (** What A3C remembers of it. *)
  Definition episode_history (e : episode St) : list a3c_step :=
    map (fun z => mk_a3c_step (snd z) (fun th => value th (fst (fst z))) (fun th => ln (pi th (fst (fst z)) (snd (fst z)))) (fun th => entropy th (fst (fst z)))) (e_steps e).
  Definition bootstrap (theta0 : R) (e : episode St) : R := match e_last e with None => 0 | Some s => value theta0 s end.
  (** The derivatives of the entropies in the states of an episode, given those in each state. *)
  Definition entropy_gradient (dent : St -> R) (e : episode St) : R := total_of (fun z => dent (fst (fst z))) (e_steps e).
End Loss.
(** The losses and the return that A3C computes for an episode. *)
Definition a3c_policy_loss {St} (pi : R -> St -> nat -> R) (entropy value : R -> St -> R) (theta0 : R) (c : a3c_conf) (e : episode St) : R -> R :=
  snd (fst (a3c_losses c theta0 (bootstrap value theta0 e) (episode_history pi entropy value e))).
Definition a3c_return {St} (pi : R -> St -> nat -> R) (entropy value : R -> St -> R) (theta0 : R) (c : a3c_conf) (e : episode St) : R :=
  fst (fst (a3c_losses c theta0 (bootstrap value theta0 e) (episode_history pi entropy value e))).
(** The discounted sum of rewards and of what comes after them. *)
Definition discounted (gamma : R) (rewards : list R) (after : R) : R :=
  sum_below (length rewards) (fun i => gamma ^ i * nth i rewards 0) + gamma ^ length rewards * after.

(** A two-step process of which only the second choice matters, and a policy with one logit: for examples. *)
Definition late_mdp : mdp nat := mk_mdp 2 (fun s a => match s with O => [(1, 0, Some 1%nat)] | _ => [(1, match a with O => 1 | _ => 0 end, None)] end).
Definition sigmoid_policy (theta : R) (s a : nat) : R := match a with O => exp theta / (exp theta + 1) | _ => 1 - exp theta / (exp theta + 1) end.
Definition sigmoid_slope (s a : nat) : R := match a with O => 1 / 4 | _ => - (1 / 4) end.
