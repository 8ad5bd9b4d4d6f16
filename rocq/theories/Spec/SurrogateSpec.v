(** The transitions of an episode, values that satisfy the Bellman equation, and the relative entropy
    of two policies in a state. *)
From Coq Require Import Reals List Arith Bool.
From Verif Require Import Base.PyBase Spec.SumSpec Model.PolicyGradient Spec.PolicyGradientSpec Model.Surrogate.
Import ListNotations.
Local Open Scope R_scope.

Section Logged.
  Context {St : Type}.
  (** What the agent remembers of an episode; [final] is whatever was observed when it ended. *)
  Fixpoint logged_steps (final : St) (l : list (St * nat * R)) (last : option St) : list (transition St) :=
    match l with
    | [] => []
    | (s, a, r) :: l' =>
        (match l', last with
         | (s', _, _) :: _, _ => mk_transition s a r s' true
         | [], Some s' => mk_transition s a r s' true
         | [], None => mk_transition s a r final false
         end) :: logged_steps final l' last
    end.
  Definition logged (final : St) (e : episode St) : list (transition St) := logged_steps final (e_steps e) (e_last e).
  (** The value of a state is the expected reward plus gamma times the value of the next state; nothing follows the end. *)
  Definition bellman (m : mdp St) (gamma : R) (p : St -> nat -> R) (v : St -> R) : Prop :=
    forall s, v s = sum_below (n_actions m) (fun a => p s a * total_of (fun z => o_prob z * (o_reward z + gamma * match snd z with None => 0 | Some s' => v s' end)) (outcomes m s a)).
End Logged.
(** The number of transitions of a list of episodes. *)
Definition size {X : Type} (eps : list (list X)) : R := INR (length (concat eps)).
(** A process where the first choice decides whether the second step, with reward 1, is reached: for examples. *)
Definition gate_mdp : mdp nat := mk_mdp 2 (fun s a => match s, a with O, O => [(1, 0, Some 1%nat)] | O, _ => [(1, 0, None)] | _, _ => [(1, 1, None)] end).
(** By how much the reward and the value of the next state (if the episode did not end) exceed the value. *)
Definition td_error {St : Type} (gamma : R) (y : evaluated St) : R :=
  x_reward (y_tr y) + gamma * (if x_nonterminal (y_tr y) then y_next_v y else 0) - y_v y.
