(** Positive definite matrices and boxes of admissible actions. *)
From Coq Require Import Reals Arith.
From Verif Require Import Spec.SumSpec.
Local Open Scope R_scope.

(** x^T P x. *)
Definition quad_form (n : nat) (P : nat -> nat -> R) (x : nat -> R) : R :=
  sum_below n (fun i => sum_below n (fun j => x i * P i j * x j)).
Definition positive_definite (n : nat) (P : nat -> nat -> R) : Prop :=
  (forall x, 0 <= quad_form n P x) /\ forall x, quad_form n P x = 0 -> forall i, (i < n)%nat -> x i = 0.
Definition symmetric (n : nat) (P : nat -> nat -> R) : Prop := forall i j, (i < n)%nat -> (j < n)%nat -> P i j = P j i.

(** Actions between the bounds that are given. *)
Definition admissible (n : nat) (lo hi : option (nat -> R)) (u : nat -> R) : Prop :=
  forall i, (i < n)%nat -> (forall l, lo = Some l -> l i <= u i) /\ (forall h, hi = Some h -> u i <= h i).
