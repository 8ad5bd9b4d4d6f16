(** What an action value promises, row by row. *)
From Coq Require Import Reals List.
From Verif Require Import Spec.SumSpec Spec.TargetSpec Spec.DistributionSpec.
Import ListNotations.
Local Open Scope R_scope.

(** The first index of a largest entry. *)
Definition first_greedy (row : list R) (a : nat) : Prop :=
  exists m, nth_error row a = Some m /\ (forall x, In x row -> x <= m) /\
  forall j x, (j < a)%nat -> nth_error row j = Some x -> x < m.
(** [vs] are the entries selected by the actions [acts], one per row. *)
Definition selects {X : Type} (rows : list (list X)) (acts : list nat) (vs : list X) : Prop :=
  length acts = length rows /\ length vs = length rows /\
  forall i row a, nth_error rows i = Some row -> nth_error acts i = Some a ->
    exists v, nth_error vs i = Some v /\ nth_error row a = Some v.
(** Every row has an entry for its action. *)
Definition valid_actions {X : Type} (rows : list (list X)) (acts : list nat) : Prop :=
  Forall2 (fun row a => (a < length row)%nat) rows acts.
(** A table of [n] columns. *)
Definition wide {X : Type} (n : nat) (rows : list (list X)) : Prop := forall row, In row rows -> length row = n.
