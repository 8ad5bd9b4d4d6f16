(** Probability vectors. *)
From Coq Require Import Reals List.
From Verif Require Import Spec.SumSpec Model.Distributions.
Import ListNotations.
Local Open Scope R_scope.

Definition probability (p : list R) : Prop := (forall x, In x p -> 0 <= x) /\ total_of (fun x => x) p = 1.
(** The expectation of the values [v]. *)
Definition expectation (p v : list R) : R := total_of (fun z => fst z * snd z) (combine p v).
(** Shannon entropy; Coq's [ln 0] is 0, so an impossible outcome contributes 0. *)
Definition shannon (p : list R) : R := - total_of (fun x => x * ln x) p.
(** Relative entropy. *)
Definition relative_entropy (p q : list R) : R := total_of (fun z => fst z * (ln (fst z) - ln (snd z))) (combine p q).
Definition mean (l : list R) : R := total_of (fun x => x) l / INR (length l).

(** What brentq promises for a function: if the end points have opposite signs (or one
    is a root) it returns a root in the bracket. *)
Definition finds_root (brentq : (R -> R) -> R -> R -> option R) (f : R -> R) (a b : R) : Prop :=
  f a * f b <= 0 -> exists y, brentq f a b = Some y /\ a <= y <= b /\ f y = 0.

(** A distribution object gives a probability vector with positive entries and its logs. *)
Definition proper (d : categorical) : Prop :=
  probability (all_prob d) /\ (forall x, In x (all_prob d) -> 0 < x) /\ all_log_prob d = map ln (all_prob d).

(** Gaussians over the same space, with positive variances. *)
Definition same_dim (p q : gaussian) : Prop :=
  length (g_mean p) = length (g_var p) /\ length (g_mean q) = length (g_mean p) /\ length (g_var q) = length (g_var p).
Definition positive (p : gaussian) : Prop := forall v, In v (g_var p) -> 0 < v.

(** An averaging operator, linear on polynomials of degree two, under which the mean is
    [m] and the variance [v]; the expectation under N(m, v) is one. *)
Definition averages (E : (R -> R) -> R) (m v : R) : Prop :=
  (forall f g, (forall x, f x = g x) -> E f = E g) /\
  (forall a b c, E (fun x => a + b * (x - m) + c * (x - m) ^ 2) = a + b * E (fun x => x - m) + c * E (fun x => (x - m) ^ 2)) /\
  E (fun x => x - m) = 0 /\ E (fun x => (x - m) ^ 2) = v.
