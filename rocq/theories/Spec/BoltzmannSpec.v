(** The Boltzmann distribution. *)
From Coq Require Import Reals List.
From Verif Require Import Spec.SumSpec.
Import ListNotations.
Local Open Scope R_scope.

Definition boltzmann (T : R) (q : list R) (i : nat) : R := exp (nth i q 0 / T) / total_of (fun v => exp (v / T)) q.
