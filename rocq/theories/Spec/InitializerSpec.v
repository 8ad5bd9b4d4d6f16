(** Orthonormal systems and lengths of vectors. *)
From Coq Require Import Reals List Arith.
From Verif Require Import Model.Quadratic Spec.SumSpec.
Local Open Scope R_scope.

Definition delta (i j : nat) : R := if Nat.eqb i j then 1 else 0.
(** The [k] columns, of [n] entries, are orthogonal to each other and have the squared length [c]. *)
Definition columns_orthogonal (n k : nat) (c : R) (w : matrix) : Prop := forall i j, (i < k)%nat -> (j < k)%nat -> sum_below n (fun r => w r i * w r j) = c * delta i j.
Definition rows_orthogonal (k n : nat) (c : R) (w : matrix) : Prop := forall i j, (i < k)%nat -> (j < k)%nat -> sum_below n (fun r => w i r * w j r) = c * delta i j.
(** Squared lengths, and a matrix times a vector. *)
Definition norm2 (n : nat) (x : nat -> R) : R := sum_below n (fun i => x i * x i).
Definition mat_vec (n : nat) (w : matrix) (x : nat -> R) : nat -> R := fun i => sum_below n (fun j => w i j * x j).
