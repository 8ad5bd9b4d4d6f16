(** Specifications for action spaces, bounded actions and OU noise. *)
From Coq Require Import QArith Reals.
From Verif Require Import Base.PyBase Model.GymEnv Spec.WrapperSpec.
Set Implicit Arguments.
Local Open Scope nat_scope.

(** A point of the box [low, high], over any ordered numbers. *)
Definition in_box {V} (le : V -> V -> Prop) (low high x : list V) : Prop :=
  Forall3 (fun l h v => le l v /\ le v h) low high x.
Definition unit_box (d : nat) : list Q -> Prop :=
  in_box Qle (repeat (-1 # 1)%Q d) (repeat 1%Q d).
(** Componentwise equality of rational vectors. *)
Definition veq : list Q -> list Q -> Prop := Forall2 Qeq.
(** (1 - t) x + t y. *)
Definition mix (t : Q) (x y : list Q) : list Q :=
  map (fun p => ((1 - t) * fst p + t * snd p)%Q) (combine x y).

(** The history seen by the env when the [j]-th step's action, counted from [j = k],
    is replaced by [new j a]. *)
Fixpoint replace_actions {A B} (new : nat -> A -> B) (k : nat) (ops : list (op A)) : list (op B) :=
  match ops with
  | [] => []
  | Reset :: r => Reset :: replace_actions new k r
  | Step a :: r => Step (new k a) :: replace_actions new (S k) r
  end.

Local Open Scope R_scope.

(** The real numbers between two optional bounds. *)
Definition between (low high : option R) (y : R) : Prop :=
  match low with Some l => l <= y | None => True end /\
  match high with Some h => y <= h | None => True end.
(** [y] is the point nearest to [x] between the bounds. *)
Definition nearest (low high : option R) (x y : R) : Prop :=
  between low high y /\ forall y', between low high y' -> Rabs (y - x) <= Rabs (y' - x).

(** The [i]-th entry of an optional array of bounds. *)
Definition bnd (b : option (list R)) (i : nat) : option R := match b with Some l => nth_error l i | None => None end.

(** ** Ornstein-Uhlenbeck noise *)

(** A history of select_action calls: greedy action and standard normal draws of
    each, all of dimension [d]; the [i]-th entries of the [k]-th call. *)
Definition acti (calls : list (list R * list R)) (k i : nat) : R := nth i (fst (nth k calls ([], []))) 0.
Definition zi (calls : list (list R * list R)) (k i : nat) : R := nth i (snd (nth k calls ([], []))) 0.
Definition wide (d : nat) (c : list R * list R) : Prop := length (fst c) = d /\ length (snd c) = d.

(** The [k]-th noise is [mu] plus the linear combination of the standard normal
    draws z_0 .. z_k with these coefficients; [first] is the factor of z_0 in the
    first noise. *)
Definition ou_coef (theta sigma first : R) (k j : nat) : R :=
  match j with
  | O => (1 - theta) ^ k * first
  | _ => if (j <=? k)%nat then (1 - theta) ^ (k - j) * sigma else 0
  end.
Definition ou_noise (mu theta sigma first : R) (z : nat -> R) (k : nat) : R :=
  mu + sum_f_R0 (fun j => ou_coef theta sigma first k j * z j) k.
(** Covariance of the [k]-th and the [l]-th noise if the draws are independent with
    variance 1. *)
Definition ou_cov (theta sigma first : R) (k l : nat) : R :=
  sum_f_R0 (fun j => ou_coef theta sigma first k j * ou_coef theta sigma first l j) (Nat.min k l).
