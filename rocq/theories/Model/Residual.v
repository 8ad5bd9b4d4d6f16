(** Model of the gradients of the losses of DQN and ResidualDQN (chainerrl/agents/dqn.py:14-75, 306-357; residual_dqn.py), in real arithmetic, for
    one direction of the parameters.  Recurrent models are not modelled here. *)
From Coq Require Import Reals List.
From Verif Require Import Base.PyBase Model.Distributions Model.ReplayUpdater Model.Targets Model.GradFunctions.
Import ListNotations.
Local Open Scope R_scope.

(** One row of a batch. *)
Record row (S' : Type) := mk_row { rw_state : S'; rw_action : nat; rw_reward : R; rw_next : S'; rw_terminal : bool; rw_discount : R; rw_weight : R }.
Arguments mk_row {S'}. Arguments rw_state {S'}. Arguments rw_action {S'}. Arguments rw_reward {S'}. Arguments rw_next {S'}. Arguments rw_terminal {S'}. Arguments rw_discount {S'}. Arguments rw_weight {S'}.

(** The derivative of a row's loss with respect to the prediction; the one with respect to the target is its negative
    (chainer's huber_loss with delta 1, mean_squared_error / 2 and square / 2). *)
Definition loss_slope (clip_delta : bool) (y t : R) : R := if clip_delta then Rmax (-1) (Rmin 1 (y - t)) else y - t.

Section Residual.
  Context {S' : Type}.
  (** [evaluate_actions]: dqn.py:320-321, residual_dqn.py:46-47. *)
  Definition predicted (q : S' -> list R) (x : row S') : R := q_evaluate (q (rw_state x)) (rw_action x).
  (** residual_dqn.py:15-32 and dqn.py:289-304, with the network that gives the next values. *)
  Definition target (q : S' -> list R) (x : row S') : R := td_row (rw_reward x) (rw_discount x) (rw_terminal x) (q_maximum (q (rw_next x))).
  (** Backward through the target: [max] selects the entry of the greedy action (action_value.py:64-67), so only this entry gets a gradient; [dq] is the derivative of the
      network's outputs in the chosen direction. *)
  Definition target_backward (q dq : S' -> list R) (x : row S') (gt : R) : R :=
    gt * (rw_discount x * (1 - terminal_flag (rw_terminal x))) * nth (q_greedy (q (rw_next x))) (dq (rw_next x)) 0.
  (** residual_dqn.py:49-52: the gradient of a row's loss through the prediction and, by [scale_grad], through the target. *)
  Definition row_gradient (clip_delta : bool) (scale : R) (q dq : S' -> list R) (x : row S') : R :=
    let g := loss_slope clip_delta (predicted q x) (target q x) in
    g * nth (rw_action x) (dq (rw_state x)) 0 + target_backward q dq x (fsum (scale_grad_backward scale [target q x] [- g])).
  (** dqn.py:14-75: sum or mean over the batch, with importance weights if there are any. *)
  Definition batch_gradient (clip_delta : bool) (scale : R) (weighted : bool) (acc : accumulator) (q dq : S' -> list R) (xs : list (row S')) : R :=
    let total := fsum (map (fun x => (if weighted then rw_weight x else 1) * row_gradient clip_delta scale q dq x) xs) in
    match acc with Mean => total / INR (length xs) | Sum => total end.
  (** dqn.py:332-357 [_compute_loss] when the predictions come from [q] and the next values from [q']. *)
  Definition batch_loss (clip_delta weighted : bool) (acc : accumulator) (q q' : S' -> list R) (xs : list (row S')) : R :=
    let y := map (predicted q) xs in
    let t := map (target q') xs in
    if weighted then compute_weighted_value_loss y t (map rw_weight xs) clip_delta acc else compute_value_loss y t clip_delta acc.
End Residual.
