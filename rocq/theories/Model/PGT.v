(** Model of the actor's loss of PGT (chainerrl/agents/pgt.py:174-200), in real arithmetic.  The critic's targets are [pgt_targets] in Model/Targets.v;
    statistics and the optimizers are not modelled here. *)
From Coq Require Import Reals List.
From Verif Require Import Base.PyBase Model.Distributions.
Import ListNotations.
Local Open Scope R_scope.

(** What the policy says about a state: the part of a [Distribution] (chainerrl/distribution.py:24-110) that is used. *)
Record policy_out (U : Type) := mk_policy_out { po_log_prob : U -> R; po_entropy : R; po_most_probable : U }.
Arguments mk_policy_out {U}. Arguments po_log_prob {U}. Arguments po_entropy {U}. Arguments po_most_probable {U}.

Section Actor.
  Context {S' U : Type}.
  (** pgt.py:178-183: [q - v], where [v] is the value of the most probable action. *)
  Definition pgt_advantage (q : S' -> U -> R) (o : policy_out U) (s : S') (a : U) : R := q s a - q s (po_most_probable o).
  (** pgt.py:174-187 [compute_actor_loss] with the sampled [actions].  [detached] is the policy as it is when the loss is computed; the advantages are
      made constants (line 184), so when the parameters vary only [policy] does. *)
  Definition pgt_actor_loss (beta : R) (q : S' -> U -> R) (detached policy : S' -> policy_out U) (states : list S') (actions : list U) : R :=
    - fsum (map (fun sa => pgt_advantage q (detached (fst sa)) (fst sa) (snd sa) * po_log_prob (policy (fst sa)) (snd sa) + beta * po_entropy (policy (fst sa)))
        (combine states actions)) / INR (length states).
End Actor.
