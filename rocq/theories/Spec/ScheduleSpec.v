(** Linear schedules, independent of the model: the straight line from [s] at
    step [t0] to [e] at step [t1], constant outside. *)
From Coq Require Import QArith Qminmax.
Local Open Scope Q_scope.

Definition line (t0 t1 : nat) (s e : Q) (t : nat) : Q :=
  if Nat.leb t t0 then s
  else if Nat.leb t1 t then e
  else s + (e - s) * (inject_Z (Z.of_nat t - Z.of_nat t0) / inject_Z (Z.of_nat t1 - Z.of_nat t0)).

(** [f] moves from [s] to [e] without ever turning back or leaving the range. *)
Definition moves (s e : Q) (f : nat -> Q) : Prop :=
  (forall t, Qmin s e <= f t <= Qmax s e) /\
  (forall t t', (t <= t')%nat -> (s <= e -> f t <= f t') /\ (e <= s -> f t' <= f t)).
