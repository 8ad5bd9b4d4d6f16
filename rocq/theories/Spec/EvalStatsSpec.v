(** What mean, median, standard deviation and extremes of scores are, and how to read a table. *)
From Coq Require Import Reals List String.
Import ListNotations.
Local Open Scope R_scope.

(** How many scores satisfy a test. *)
Fixpoint count (p : R -> Prop) (dec : forall x, {p x} + {~ p x}) (xs : list R) : nat :=
  match xs with [] => 0%nat | x :: xs => ((if dec x then 1 else 0) + count p dec xs)%nat end.
Definition at_most (m : R) (xs : list R) : nat := count (fun x => x <= m) (fun x => Rle_dec x m) xs.
Definition at_least (m : R) (xs : list R) : nat := count (fun x => m <= x) (fun x => Rle_dec m x) xs.
(** [m] is a median: half of the scores or more are not above it, and half or more not below. *)
Definition is_median (m : R) (xs : list R) : Prop := (List.length xs <= 2 * at_most m xs)%nat /\ (List.length xs <= 2 * at_least m xs)%nat.
Definition is_max (m : R) (xs : list R) : Prop := In m xs /\ forall x, In x xs -> x <= m.
Definition is_min (m : R) (xs : list R) : Prop := In m xs /\ forall x, In x xs -> m <= x.
Definition all_same (xs : list R) : Prop := forall x y, In x xs -> In y xs -> x = y.
(** The value a row has in the first column with a given name. *)
Fixpoint cell (name : string) (header : list string) (row : list R) : option R :=
  match header, row with h :: header, v :: row => if string_dec name h then Some v else cell name header row | _, _ => None end.
