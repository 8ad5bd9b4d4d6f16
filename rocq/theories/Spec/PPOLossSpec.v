(** The clipped surrogate objective and averages. *)
From Coq Require Import Reals List.
From Verif Require Import Spec.SumSpec.
Import ListNotations.
Local Open Scope R_scope.

Definition average {X : Type} (f : X -> R) (l : list X) : R := total_of f l / INR (length l).
(** A good action (non-negative advantage) is worth no more than at ratio 1 + eps, a bad
    one is charged at least as at ratio 1 - eps. *)
Definition capped_gain (eps adv ratio : R) : R :=
  if Rle_dec 0 adv then Rmin ratio (1 + eps) * adv else Rmax ratio (1 - eps) * adv.
Definition all_equal (l : list R) : Prop := forall x y, In x l -> In y l -> x = y.
