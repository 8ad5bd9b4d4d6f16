(** Finite sums and products of reals. *)
From Coq Require Import Reals.
Local Open Scope R_scope.
(** f 0 + ... + f (m - 1). *)
Fixpoint sum_below (m : nat) (f : nat -> R) : R := match m with O => 0 | S m => sum_below m f + f m end.
(** f 0 * ... * f (m - 1). *)
Fixpoint prod_below (m : nat) (f : nat -> R) : R := match m with O => 1 | S m => prod_below m f * f m end.
(** The sum of [f x] over the elements of a list. *)
Definition total_of {X : Type} (f : X -> R) (l : list X) : R := List.fold_right (fun x s => f x + s) 0 l.
