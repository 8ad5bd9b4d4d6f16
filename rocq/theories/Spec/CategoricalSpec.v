(** Specification of the projection of a discrete distribution on evenly spaced atoms. *)
From Coq Require Import QArith Qabs Qminmax.
From Verif Require Import Base.PyBase Model.Categorical Spec.WrapperSpec.
Set Implicit Arguments.
Local Open Scope nat_scope.

(** The [i]-th of the atoms starting at [v0] with distance [dz]. *)
Definition atom (v0 dz : Q) (i : nat) : Q := (v0 + inject_Z (Z.of_nat i) * dz)%Q.
(** [z] are [n >= 2] evenly spaced increasing atoms. *)
Definition evenly_spaced (v0 dz : Q) (z : list Q) : Prop :=
  (0 < dz)%Q /\ 2 <= length z /\ forall i x, nth_error z i = Some x -> (x == atom v0 dz i)%Q.
(** The point of [lo, hi] nearest to [x]. *)
Definition qclamp (lo hi x : Q) : Q := Qmin (Qmax x lo) hi.
(** The share of a unit mass at [x] that the atom at [c] gets: linear interpolation
    between the two neighbouring atoms. *)
Definition share (dz x c : Q) : Q := Qmax 0 (1 - Qabs (x - c) / dz).
(** Sum over a distribution given as list of (value, probability). *)
Definition expect (f : Q -> Q) (d : list (Q * Q)) : Q := qsum (map (fun p => snd p * f (fst p))%Q d).
(** Mean of the distribution [d] on the atoms [z]. *)
Definition meanv (z d : list Q) : Q := expect (fun v => v) (combine z d).
(** Bellman backup of the value [v] of the next state. *)
Definition backup (x : cexp) (v : Q) : Q := (c_reward x + (if c_terminal x then 0 else c_discount x) * v)%Q.
