(** Model of chainerrl/optimizers: rmsprop_async.py and nonbias_weight_decay.py, with the parts of
    chainer's [GradientMethod] that call them; in real arithmetic. *)
From Coq Require Import Reals List String.
From Verif Require Import Base.PyBase Model.Distributions.
Import ListNotations.
Local Open Scope R_scope.

(** A parameter: its name in its link, its value ([None] until its shape is known) and its
    gradient ([None] if there is none); and the state of its update rule. *)
Record slot := mk_slot { p_name : string; p_array : option (list R); p_grad : option (list R); p_ms : option (list R) }.
Record hyper := mk_hyper { lr : R; alpha : R; eps : R }.

(** rmsprop_async.py:25-28 [init_state], at the first update. *)
Definition init_state (s : slot) : slot :=
  match p_array s, p_ms s with
  | Some a, None => mk_slot (p_name s) (p_array s) (p_grad s) (Some (map (fun _ => 0) a))
  | _, _ => s
  end.
(** rmsprop_async.py:30-39 [update_core_cpu]; the kernel for a GPU (lines 41-51) is the same formula. *)
Definition update_core (hp : hyper) (s : slot) : slot :=
  match p_array s, p_grad s, p_ms s with
  | Some a, Some g, Some ms =>
    let ms := zipr (fun m g => m * alpha hp + (1 - alpha hp) * g * g) ms g in
    mk_slot (p_name s) (Some (zipr Rminus a (zipr (fun g m => lr hp * g / sqrt (m + eps hp)) g ms))) (p_grad s) (Some ms)
  | _, _, _ => s
  end.
(** nonbias_weight_decay.py:23-34 [NonbiasWeightDecay.__call__]. *)
Definition nonbias_decay (rate : R) (s : slot) : slot :=
  if String.eqb (p_name s) "b" then s
  else match p_array s, p_grad s with
       | Some a, Some g => mk_slot (p_name s) (p_array s) (Some (zipr (fun g p => g + rate * p) g a)) (p_ms s)
       | _, _ => s
       end.
(** chainer's [reallocate_cleared_grads]: a missing gradient becomes zeros. *)
Definition reallocate (s : slot) : slot :=
  match p_array s, p_grad s with
  | Some a, None => mk_slot (p_name s) (p_array s) (Some (map (fun _ => 0) a)) (p_ms s)
  | _, _ => s
  end.
(** chainer's [GradientMethod.update] without a loss function: missing gradients, hooks that are
    called for each parameter, then the update rule of each parameter. *)
Definition update_slot (hp : hyper) (rate : option R) (s : slot) : slot :=
  let s := reallocate s in
  let s := match rate with Some rate => nonbias_decay rate s | None => s end in
  update_core hp (init_state s).
(** One training step for a model with several parameters: the backward pass leaves a gradient, or
    none, at each parameter. *)
Fixpoint train_step (hp : hyper) (rate : option R) (model : list slot) (grads : list (option (list R))) : list slot :=
  match model, grads with
  | s :: model, g :: grads => update_slot hp rate (mk_slot (p_name s) (p_array s) g (p_ms s)) :: train_step hp rate model grads
  | _, _ => []
  end.
Definition train (hp : hyper) (rate : option R) (model : list slot) (steps : list (list (option (list R)))) : list slot :=
  fold_left (train_step hp rate) steps model.
