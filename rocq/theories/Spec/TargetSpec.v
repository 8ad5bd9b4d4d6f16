(** n-step targets, maxima and quantile regression. *)
From Coq Require Import Reals List.
From Verif Require Import Model.ReplayUpdater Spec.ReturnSpec.
Import ListNotations.
Local Open Scope R_scope.

(** The n-step target of a window whose final state is worth [v]: after a terminal
    transition there is no bootstrapping. *)
Definition nstep_target {S A : Type} (gamma : R) (e : list (transition S A)) (v : R) : R :=
  discounted gamma (map (@t_reward S A) e) + (if existsb (@t_terminal S A) e then 0 else gamma ^ length e * v).

Definition is_maximum (m : R) (l : list R) : Prop := In m l /\ forall x, In x l -> x <= m.
Definition is_greedy (a : nat) (l : list R) : Prop := exists m, nth_error l a = Some m /\ forall x, In x l -> x <= m.

(** The quantile regression loss of a prediction [y] of the [tau]-quantile: an
    under-prediction by d costs tau times, an over-prediction 1 - tau times, the
    (symmetric) cost [c d] of the difference. *)
Definition quantile_regression (c : R -> R) (tau y t : R) : R :=
  if Rlt_dec y t then tau * c (t - y) else (1 - tau) * c (y - t).
(** The Huber function of a non-negative difference. *)
Definition huber_of (kappa d : R) : R := if Rle_dec d kappa then d ^ 2 / 2 else kappa * (d - kappa / 2).
