(** What n-step targets look at: the windows that start with an action and follow a policy, and the process in
    which an action is followed by further steps of that policy. *)
From Coq Require Import Reals List Arith.
From Verif Require Import Base.PyBase Model.Distributions Model.ReplayUpdater Model.Targets Spec.SumSpec Spec.PolicyGradientSpec Spec.BellmanSpec.
Import ListNotations.
Local Open Scope R_scope.

Section NStep.
  Context {St : Type}.
  Variable m : mdp St.
  Variable gamma : R.
  Variable final : St.
  (** The policy that collects the experience. *)
  Variable p : St -> nat -> R.
  (** What can happen in [S k] steps: action [a] in state [s] and then [k] steps of the policy, unless the episode ends before. *)
  Definition first_steps (k : nat) (s : St) (a : nat) : list (episode St) :=
    flat_map (fun z : R * R * option St =>
      map (fun e => mk_episode (o_prob z * e_prob e) ((s, a, o_reward z) :: e_steps e) (e_last e))
        match snd z with None => [mk_episode 1 [] None] | Some s' => all_episodes m p k s' end) (outcomes m s a).
  (** The transitions of these steps as they are stored: the last one is terminal if the episode has ended. *)
  Fixpoint transitions_of (steps : list (St * nat * R)) (o : option St) : list (transition St nat) :=
    match steps with
    | [] => []
    | (s, a, r) :: rest =>
        mk_tr s a r
          match rest with x :: _ => fst (fst x) | [] => match o with None => final | Some s' => s' end end None
          match rest with _ :: _ => false | [] => match o with None => true | Some _ => false end end
        :: transitions_of rest o
    end.
  Definition window (e : episode St) : list (transition St nat) := transitions_of (e_steps e) (e_last e).
  (** The sum of the discounted rewards. *)
  Definition window_reward (e : episode St) : R := sum_below (length (e_steps e)) (fun i => gamma ^ i * nth i (map snd (e_steps e)) 0).
  (** The process of which [S k] steps are one step. *)
  Definition n_step_process (k : nat) : mdp St :=
    mk_mdp (n_actions m) (fun s a => map (fun e => (e_prob e, window_reward e, e_last e)) (first_steps k s a)).
  (** The target of a window for a value of its last state. *)
  Definition window_target (v : St -> R) (e : episode St) : R :=
    match batch_experiences (fun s => s) gamma [window e] with Ok b => nth 0 (td_targets v b) 0 | Raise _ => 0 end.
  (** The average targets of the windows that start in [s], one for each action. *)
  Definition n_step_backup (value : St -> list R -> R) (k : nat) (Q : St -> list R) (s : St) : list R :=
    map (fun a => total_of (fun e => e_prob e * window_target (fun s' => value s' (Q s')) e) (first_steps k s a)) (seq 0 (n_actions m)).
  Definition is_choice : Prop := (forall s a, 0 <= p s a) /\ forall s, sum_below (n_actions m) (p s) = 1.
  (** Discounted steps [1] to [k]. *)
  Definition later (k : nat) : R := sum_below k (fun i => gamma ^ S i).
End NStep.

(** The right first action leads to a second choice that a policy can spoil. *)
Definition spoilt_mdp : mdp nat :=
  mk_mdp 2 (fun s a => match s, a with
    | O, O => [(1, 0, Some 1%nat)] | O, _ => [(1, 3 / 8, None)]
    | _, O => [(1, 1, None)] | _, _ => [(1, 0, None)] end).
Definition even_policy (s a : nat) : R := 1 / 2.
