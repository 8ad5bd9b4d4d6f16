(** RMSprop of one number, with weight decay. *)
From Coq Require Import Reals List String.
From Verif Require Import Model.Optimizers Spec.SumSpec.
Import ListNotations.
Local Open Scope R_scope.

(** The decay that applies to a parameter. *)
Definition decay_of (rate : option R) (name : string) : R :=
  match rate with Some r => if String.eqb name "b" then 0 else r | None => 0 end.
(** One step from the value [p] and the mean square [m] with the gradient [g] of the loss. *)
Definition rms_step (hp : hyper) (decay : R) (pm : R * R) (g : R) : R * R :=
  let (p, m) := pm in
  let g := g + decay * p in
  let m := alpha hp * m + (1 - alpha hp) * (g * g) in
  (p - lr hp * g / sqrt (m + eps hp), m).
(** The gradient of entry [j] of the parameter [i] in one step; 0 if there is none. *)
Definition entry (g : option (list R)) (j : nat) : R := match g with Some v => nth j v 0 | None => 0 end.
Definition entry_of (grads : list (option (list R))) (i j : nat) : R := entry (nth i grads None) j.
(** The gradients fit the parameters. *)
Definition fits (model : list slot) (grads : list (option (list R))) : Prop :=
  List.Forall2 (fun s g => forall a v, p_array s = Some a -> g = Some v -> List.length v = List.length a) model grads.
(** A model before its first update: every parameter has a value. *)
Definition fresh (model : list slot) : Prop := List.Forall (fun s => p_array s <> None /\ p_ms s = None) model.
