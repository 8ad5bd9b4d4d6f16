(** Perceptrons as functions, and affine functions. *)
From Coq Require Import Reals List Arith.
From Verif Require Import Base.PyBase Model.Quadratic Model.Distributions Model.Networks Spec.SumSpec Spec.ActionSpec.
Import ListNotations.
Local Open Scope R_scope.

(** One layer: W x + b. *)
Definition lin (l : affine) (x : vec) : vec := map (fun i => sum_below (length x) (fun j => a_W l i j * nth j x 0) + a_b l i) (seq 0 (a_out l)).
(** Layers with the nonlinearity between them, but not after the last. *)
Fixpoint perceptron (act : R -> R) (layers : list affine) (x : vec) : vec :=
  match layers with
  | [] => x
  | [l] => lin l x
  | l :: layers => perceptron act layers (map act (lin l x))
  end.
(** Each layer takes what the one before it gives, from [n] inputs to [m] outputs. *)
Inductive chain : nat -> list affine -> nat -> Prop :=
| chain_nil : forall n, chain n [] n
| chain_cons : forall n l ls m, a_in l = Some n -> chain (a_out l) ls m -> chain n (l :: ls) m.
(** Affine functions of vectors of [n] entries. *)
Definition blend (t : R) (x y : vec) : vec := zipr (fun a b => (1 - t) * a + t * b) x y.
Definition affine_function (n : nat) (f : vec -> res vec) : Prop :=
  forall x y t, length x = n -> length y = n -> exists fx fy, f x = Ok fx /\ f y = Ok fy /\ f (blend t x y) = Ok (blend t fx fy).
(** The layers of a network in order. *)
Definition layers_of (m : mlp) : list affine := m_hidden m ++ [m_output m].
(** Bounds for the actions, if any: [a] intervals. *)
Definition bounds_ok (bound : option (vec * vec)) (a : nat) : Prop := match bound with Some (low, high) => Forall2 Rlt low high /\ length low = a | None => True end.
Definition within_bounds (bound : option (vec * vec)) (mean : vec) : Prop := match bound with Some (low, high) => in_box Rlt low high mean | None => True end.
(** Batch normalisation with fixed statistics: centred, divided by the standard deviation, scaled and shifted. *)
Definition standardised (b : bn) (x y : vec) : Prop :=
  length y = length x /\ forall i, (i < length x)%nat -> (nth i y 0 - bn_beta b i) * sqrt (bn_var b i + bn_eps b) = bn_gamma b i * (nth i x 0 - bn_mean b i).
(** The values between the layers of a network in which each linear layer but the last is followed by a
    normalisation and then the nonlinearity. *)
Inductive normalised_run (act : R -> R) : list (affine * bn) -> vec -> vec -> Prop :=
| run_nil : forall x, normalised_run act [] x x
| run_cons : forall l b layers x y z, standardised b (lin l x) y -> normalised_run act layers (map act y) z -> normalised_run act ((l, b) :: layers) x z.
