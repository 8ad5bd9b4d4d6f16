(** What IQN computes, one sample and one threshold at a time. *)
From Coq Require Import Reals List.
From Verif Require Import Spec.SumSpec Model.Targets.
Import ListNotations.
Local Open Scope R_scope.

(** Entrywise product. *)
Fixpoint times (a b : list R) : list R := match a, b with x :: a, y :: b => x * y :: times a b | _, _ => [] end.
(** The embedding of a threshold: the cosines of pi, 2 pi, ..., n pi times it. *)
Definition embedding (n : nat) (tau : R) : list R := map (fun i => cos (PI * INR (S i) * tau)) (seq 0 n).
(** The outputs for one sample, whose features are [x], at one threshold. *)
Definition alone (n_basis : nat) (lin f : list R -> list R) (x : list R) (tau : R) : list R := f (times x (lin (embedding n_basis tau))).

Fixpoint total (l : list R) : R := match l with [] => 0 | x :: l => x + total l end.
Definition average (l : list R) : R := total l / INR (length l).
(** The loss of one sample: over its predictions and thresholds, the sum of the average losses against its targets. *)
Definition sample_loss (ys taus ts : list R) : R := total (map (fun w => average (map (fun t => quantile_loss 1 (snd w) (fst w) t) ts)) (combine ys taus)).
Definition samples (y taus t : list (list R)) : list R := map (fun z => sample_loss (fst (fst z)) (snd (fst z)) (snd z)) (combine (combine y taus) t).
(** All rows have [n] entries. *)
Definition rows_of {X} (n : nat) (a : list (list X)) : Prop := Forall (fun r => length r = n) a.
(** The quantiles [q] are symmetric about [m]: those at tau and at 1 - tau have the average m. *)
Definition symmetric (q : R -> list R) (m : list R) : Prop :=
  forall tau, 0 <= tau <= 1 -> length (q tau) = length m /\ forall a, nth a (q tau) 0 + nth a (q (1 - tau)) 0 = 2 * nth a m 0.
