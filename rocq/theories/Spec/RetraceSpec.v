(** The targets that ACER fits its action values to (acer.py:392-466), averaged over the episodes of a
    behaviour policy.  Sets of actions are finite; episodes are cut after any number of steps. *)
From Coq Require Import Reals List Arith.
From Verif Require Import Base.PyBase Model.Acer Spec.SumSpec Spec.PolicyGradientSpec Spec.BellmanSpec Spec.SoftSpec.
Import ListNotations.
Local Open Scope R_scope.

Section Retrace.
  Context {St : Type}.
  Variable m : mdp St.
  Variable gamma : R.
  Variable final : St.
  (** What a state is worth under policy [p] if actions are worth [q]: acer.py:126. *)
  Definition state_value (p q : St -> nat -> R) (s : St) : R := sum_below (n_actions m) (fun a => p s a * q s a).
  (** The action values of [p]: acting once and then following [p] for ever. *)
  Definition action_values (p q : St -> nat -> R) : Prop :=
    (exists b, forall s a, (a < n_actions m)%nat -> Rabs (q s a) <= b) /\
    forall s a, (a < n_actions m)%nat -> q s a = lookahead m gamma final (state_value p q) s a.
  (** How far two assignments of action values are apart. *)
  Definition apart (d : R) (q q' : St -> nat -> R) : Prop := forall s a, (a < n_actions m)%nat -> Rabs (q s a - q' s a) <= d.

  (** What is replayed of an episode that followed [mu]. *)
  Definition replayed (p mu q : St -> nat -> R) (e : episode St) : list hstep :=
    map (fun z : St * nat * R => let s := fst (fst z) in let a := snd (fst z) in mk_hstep (snd z) (state_value p q s) (q s a) (p s a / mu s a)) (e_steps e).
  (** What the loop starts from: nothing after an end, else the value of the state after the steps. *)
  Definition after_steps (p q : St -> nat -> R) (e : episode St) : R := match e_last e with None => 0 | Some s => state_value p q s end.
  Definition both_targets (p mu q : St -> nat -> R) (e : episode St) : R * R :=
    hd (0, 0) (fst (acer_returns gamma true 1 (after_steps p q e) (replayed p mu q e))).
  (** The episodes that start with action [a] in [s] and then follow [mu] for at most [k] steps. *)
  Definition episodes_from (mu : St -> nat -> R) (k : nat) (s : St) (a : nat) : list (episode St) :=
    flat_map (fun z : R * R * option St =>
      map (fun e => mk_episode (o_prob z * e_prob e) ((s, a, o_reward z) :: e_steps e) (e_last e))
        match snd z with None => [mk_episode 1 [] None] | Some s' => all_episodes m mu k s' end) (outcomes m s a).
  (** The average of the targets of their first action: with truncated weights, which the action values are
      fitted to, and without, which serves for the advantages if [use_Q_opc]. *)
  Definition retrace (p mu q : St -> nat -> R) (k : nat) (s : St) (a : nat) : R :=
    total_of (fun e => e_prob e * fst (both_targets p mu q e)) (episodes_from mu k s a).
  Definition untruncated (p mu q : St -> nat -> R) (k : nat) (s : St) (a : nat) : R :=
    total_of (fun e => e_prob e * snd (both_targets p mu q e)) (episodes_from mu k s a).
  (** Repeatedly; in each round the episodes come from another behaviour and have another length. *)
  Fixpoint fitted (p : St -> nat -> R) (rounds : list ((St -> nat -> R) * nat)) (q : St -> nat -> R) : St -> nat -> R :=
    match rounds with [] => q | (mu, k) :: rounds => fitted p rounds (retrace p mu q k) end.
End Retrace.

(** One state; two actions that lead back to it and pay nothing. *)
Definition loop_mdp : mdp unit := mk_mdp 2 (fun _ _ => [(1, 0, Some tt)]).
Definition always (a : nat) (_ : unit) (b : nat) : R := if Nat.eqb a b then 1 else 0.
