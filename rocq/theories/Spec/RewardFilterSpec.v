(** Exponentially weighted averages. *)
From Coq Require Import Reals List.
From Verif Require Import Spec.SumSpec.
Import ListNotations.
Local Open Scope R_scope.

(** The average of a history, the newest value last: the value of [k] calls ago has the weight
    tau * (1 - tau) ^ k; the rest of the weight is on 0. *)
Definition decayed (tau : R) (h : list R) : R := sum_below (length h) (fun i => tau * (1 - tau) ^ (length h - 1 - i) * nth i h 0).
(** The corresponding variance. *)
Definition decayed_var (tau : R) (h : list R) : R := decayed tau (map (fun r => r * r) h) - decayed tau h * decayed tau h.
