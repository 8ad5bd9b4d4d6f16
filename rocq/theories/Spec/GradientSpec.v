(** Gradients: directional derivatives of a scalar product. *)
From Coq Require Import Reals List.
From Verif Require Import Spec.SumSpec.
Import ListNotations.
Local Open Scope R_scope.

Definition dot (a b : list R) : R := total_of (fun z => fst z * snd z) (combine a b).
(** x + t v. *)
Definition move (x v : list R) (t : R) : list R := map (fun z => fst z + t * snd z) (combine x v).
(** The same for a tuple of arrays. *)
Definition dots (a b : list (list R)) : R := total_of (fun z => dot (fst z) (snd z)) (combine a b).
Definition moves (x v : list (list R)) (t : R) : list (list R) := map (fun z => move (fst z) (snd z) t) (combine x v).
(** Two tuples of arrays of the same shapes. *)
Definition same_shapes (x v : list (list R)) : Prop := Forall2 (fun a b => length a = length b) x v.

(** [g] is the gradient at [x] of the scalar <gy, f> with respect to the input tuple:
    its product with every direction is the derivative in that direction. *)
Definition is_gradient (f : list (list R) -> list R) (x : list (list R)) (gy : list R) (g : list (list R)) : Prop :=
  same_shapes x g /\
  forall v, same_shapes x v -> derivable_pt_lim (fun t => dot gy (f (moves x v t))) 0 (dots g v).
(** The scalar product of two matrices. *)
Definition mdot (n : nat) (a b : nat -> nat -> R) : R := sum_below n (fun i => sum_below n (fun j => a i j * b i j)).
