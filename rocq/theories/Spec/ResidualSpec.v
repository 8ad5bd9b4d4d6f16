(** Networks with one parameter, the transitions of a process as rows, and processes for examples. *)
From Coq Require Import Reals List Arith.
From Verif Require Import Base.PyBase Model.Distributions Model.Targets Model.Residual Spec.SumSpec Spec.PolicyGradientSpec Spec.BellmanSpec.
Import ListNotations.
Local Open Scope R_scope.

(** The outputs of the network have the derivative [dq] at the parameter [theta0]. *)
Definition network_derivative {S'} (q : R -> S' -> list R) (theta0 : R) (dq : S' -> list R) : Prop :=
  forall s, (forall theta, length (q theta s) = length (dq s)) /\ forall a, derivable_pt_lim (fun theta => nth a (q theta s) 0) theta0 (nth a (dq s) 0).
(** One action is better than all others. *)
Definition clear_choice (qs : list R) : Prop := qs <> [] /\ forall a, (a < length qs)%nat -> a <> q_greedy qs -> nth a qs 0 < q_maximum qs.

Section Process.
  Context {St : Type}.
  Variable m : mdp St.
  Variable gamma : R.
  Variable final : St.
  (** The transition of an outcome [z] of action [a] in [s]. *)
  Definition outcome_row (s : St) (a : nat) (z : R * R * option St) : row St := mk_row s a (o_reward z) (arrives final z) (ended z) gamma 1.
  (** The average loss and the average gradient for the transitions after action [a] in [s]. *)
  Definition average_loss (clip_delta : bool) (Q : St -> list R) (s : St) (a : nat) : R :=
    total_of (fun z => o_prob z * row_loss clip_delta (predicted Q (outcome_row s a z)) (target Q (outcome_row s a z))) (outcomes m s a).
  Definition average_gradient (clip_delta : bool) (scale : R) (Q dQ : St -> list R) (s : St) (a : nat) : R :=
    total_of (fun z => o_prob z * row_gradient clip_delta scale Q dQ (outcome_row s a z)) (outcomes m s a).
  (** How much the targets vary. *)
  Definition variance (Q : St -> list R) (s : St) (a : nat) : R :=
    total_of (fun z => o_prob z * (target Q (outcome_row s a z) - lookahead m gamma final (fun s' => q_maximum (Q s')) s a) ^ 2) (outcomes m s a).
  Definition deterministic : Prop := forall s a, exists z, outcomes m s a = [z].
End Process.

(** From state 0 chance leads to state 1, which is worth 1, or to state 2, which is worth nothing. *)
Definition chance_mdp : mdp nat :=
  mk_mdp 1 (fun s _ => match s with O => [(1 / 2, 0, Some 1%nat); (1 / 2, 0, Some 2%nat)] | 1%nat => [(1, 1, None)] | _ => [(1, 0, None)] end).
Definition chance_values (a b c : R) (s : nat) : list R := match s with O => [a] | 1%nat => [b] | _ => [c] end.
(** A rare large reward. *)
Definition lottery_mdp : mdp nat := mk_mdp 1 (fun _ _ => [(3 / 4, 0, None); (1 / 4, 4, None)]).
