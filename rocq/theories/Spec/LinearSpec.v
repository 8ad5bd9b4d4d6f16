(** Linear operators on vectors of dimension [n] and the systems they define. *)
From Coq Require Import Reals List.
From Verif Require Import Model.ConjugateGradient.
Import ListNotations.
Local Open Scope R_scope.

Record spd (n : nat) (A : vec -> vec) : Prop := {
  spd_dim : forall u, length u = n -> length (A u) = n;
  spd_add : forall u v, length u = n -> length v = n -> A (vadd u v) = vadd (A u) (A v);
  spd_scale : forall c u, length u = n -> A (vscale c u) = vscale c (A u);
  spd_sym : forall u v, length u = n -> length v = n -> dot u (A v) = dot (A u) v;
  spd_pos : forall u, length u = n -> (exists x, In x u /\ x <> 0) -> 0 < dot u (A u)
}.
(** Positive semidefinite. *)
Record psd (n : nat) (A : vec -> vec) : Prop := {
  psd_dim : forall u, length u = n -> length (A u) = n;
  psd_add : forall u v, length u = n -> length v = n -> A (vadd u v) = vadd (A u) (A v);
  psd_scale : forall c u, length u = n -> A (vscale c u) = vscale c (A u);
  psd_sym : forall u v, length u = n -> length v = n -> dot u (A v) = dot (A u) v;
  psd_pos : forall u, length u = n -> 0 <= dot u (A u)
}.

Definition nonzero (u : vec) : Prop := exists x, In x u /\ x <> 0.
