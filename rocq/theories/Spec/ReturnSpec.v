(** Discounted sums of rewards. *)
From Coq Require Import Reals List.
Import ListNotations.

(** r_0 + gamma (r_1 + gamma (r_2 + ...)). *)
Fixpoint discounted (gamma : R) (rs : list R) : R :=
  match rs with [] => 0%R | r :: t => (r + gamma * discounted gamma t)%R end.
