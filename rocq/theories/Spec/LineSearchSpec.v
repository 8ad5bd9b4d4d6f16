(** What the line search must return. *)
From Coq Require Import QArith.
From Verif Require Import Base.PyBase Model.LineSearch.
Set Implicit Arguments.
Local Open Scope nat_scope.

Definition well_formed (p : param) : Prop := length (entries p) = fold_right Nat.mul 1 (shape p).

(** 1 / 2^i. *)
Fixpoint half (i : nat) : Q := match i with O => 1 | S i => half i * (1 # 2) end%Q.

(** [ps'] is [ps] moved by [s] times the step, entry by entry. *)
Definition moved (ps : list param) (step : list Q) (s : Q) (ps' : list param) : Prop :=
  map shape ps' = map shape ps /\ Forall well_formed ps' /\
  forall i x d, nth_error (concat (map entries ps)) i = Some x -> nth_error step i = Some d ->
    nth_error (concat (map entries ps')) i = Some (x + s * d)%Q.

(** Both measurements are finite, the KL divergence is within the bound and the gain
    is not below the old one. *)
Definition acceptable (old_gain : fl) (max_kl : Q) (m : fl * fl) : Prop :=
  exists g k, m = (Fin g, Fin k) /\ (k <= max_kl)%Q /\ match old_gain with Fin g0 => (g0 <= g)%Q | PInf => False | _ => True end.
