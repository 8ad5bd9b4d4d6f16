(** Gradients of functions of many parameters, twice differentiable policies, and the Fisher information. *)
From Coq Require Import Reals List.
From Verif Require Import Model.PPOLoss Model.ConjugateGradient Model.NaturalGradient Spec.SumSpec.
Import ListNotations.
Local Open Scope R_scope.

(** [g] is the gradient of [f] at [th]: along every direction [v], the derivative is [g . v].  This is the contract of chainer.grad. *)
Definition is_gradient (f : vec -> R) (th g : vec) : Prop :=
  length g = length th /\ forall v, length v = length th -> derivable_pt_lim (fun t => f (vadd th (vscale t v))) 0 (dot g v).
(** What trpo.py:60-66 and 507-553 compute as the product of the Hessian of [kl] with [v]. *)
Definition is_hvp (kl : vec -> R) (th0 v h : vec) : Prop :=
  exists flat_grads, (forall th, length th = length th0 -> is_gradient kl th (flat_grads th)) /\ is_gradient (grads_times flat_grads v) th0 h.

(** A policy over [n_act] actions whose probabilities are positive and add up to 1, with gradients [d] everywhere and second derivatives [dd] at [th0]. *)
Record smooth {St} (n n_act : nat) (pi : vec -> St -> nat -> R) (th0 : vec) (d : vec -> St -> nat -> vec) (dd : St -> nat -> vec -> vec) : Prop := {
  sm_dim : length th0 = n;
  sm_pos : forall th s a, length th = n -> 0 < pi th s a;
  sm_one : forall th s, length th = n -> sum_below n_act (pi th s) = 1;
  sm_first : forall th s a, length th = n -> is_gradient (fun th => pi th s a) th (d th s a);
  sm_second : forall s a v, length v = n -> is_gradient (fun th => dot (d th s a) v) th0 (dd s a v) }.

(** The vector [mean over the states of the sum over the actions of c s a times x s a]. *)
Definition weighted {St} (n n_act : nat) (states : list St) (c : St -> nat -> R) (x : St -> nat -> vec) : vec :=
  map (fun i => fmean (fun s => sum_below n_act (fun a => c s a * nth i (x s a) 0)) states) (seq 0 n).
(** The derivative of the log probability, and the Fisher information times [v]: the average of the score times its product with [v]. *)
Definition score {St} (pi : vec -> St -> nat -> R) (d : vec -> St -> nat -> vec) (th0 : vec) (s : St) (a : nat) : vec := vscale (/ pi th0 s a) (d th0 s a).
Definition fisher {St} (n n_act : nat) (pi : vec -> St -> nat -> R) (d : vec -> St -> nat -> vec) (th0 : vec) (states : list St) (v : vec) : vec :=
  weighted n n_act states (fun s a => pi th0 s a * dot (score pi d th0 s a) v) (score pi d th0).
(** Twice the second-order change that the damped step sees. *)
Definition damped_form (F : vec -> vec) (damping : R) (s : vec) : R := dot s (F s) + damping * dot s s.
(** A linear change of parameters [M] with transpose [Mt], neither of which loses anything. *)
Record change_of_parameters (n : nat) (M Mt : vec -> vec) : Prop := {
  ch_dim : forall u, length u = n -> length (M u) = n;
  ch_dim_t : forall u, length u = n -> length (Mt u) = n;
  ch_scale : forall c u, length u = n -> M (vscale c u) = vscale c (M u);
  ch_adjoint : forall u v, length u = n -> length v = n -> dot (M u) v = dot u (Mt v);
  ch_keeps : forall u v, length u = n -> length v = n -> Mt u = Mt v -> u = v }.

(** A policy over two actions whose log-odds are linear in features of the state, with its derivatives: an example of a smooth policy. *)
Definition sig (x : R) : R := / (1 + exp (- x)).
Definition logistic (feat : nat -> vec) (th : vec) (s a : nat) : R := match a with O => sig (dot (feat s) th) | _ => 1 - sig (dot (feat s) th) end.
Definition logistic_d (feat : nat -> vec) (th : vec) (s a : nat) : vec :=
  let p := sig (dot (feat s) th) in vscale (match a with O => p * (1 - p) | _ => - (p * (1 - p)) end) (feat s).
Definition logistic_dd (feat : nat -> vec) (th0 : vec) (s a : nat) (v : vec) : vec :=
  let p := sig (dot (feat s) th0) in vscale (match a with O => p * (1 - p) * (1 - 2 * p) | _ => - (p * (1 - p) * (1 - 2 * p)) end * dot (feat s) v) (feat s).
