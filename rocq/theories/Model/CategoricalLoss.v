(** Model of the losses of chainerrl/agents/categorical_dqn.py (lines 69-110 and 184-211).  Probabilities are real
    numbers, rows are lists over the atoms. *)
From Coq Require Import Reals List Arith.
From Verif Require Import Base.PyBase Model.Distributions Model.Targets Model.PPOLoss.
Import ListNotations.
Local Open Scope R_scope.

(** categorical_dqn.py:189: [-t * F.log(F.clip(y, 1e-10, 1.))] of one atom. *)
Definition atom_loss (y t : R) : R := - t * ln (clip y (/ 10 ^ 10) 1).
(** categorical_dqn.py:195: the loss of one example, [F.sum(eltwise_loss, axis=1)]. *)
Definition row_cross_entropy (y t : list R) : R := fsum (zipr atom_loss y t).
(** categorical_dqn.py:69-85 [compute_value_loss]: F.sum over all elements, or the mean over the examples. *)
Definition c_value_loss (y t : list (list R)) (acc : accumulator) : R :=
  match acc with
  | Sum => fsum (concat (map (fun p => zipr atom_loss (fst p) (snd p)) (combine y t)))
  | Mean => fsum (map (fun p => row_cross_entropy (fst p) (snd p)) (combine y t)) / INR (length y)
  end.
(** categorical_dqn.py:88-110 [compute_weighted_value_loss]: [F.matmul] of the losses of the examples and the weights. *)
Definition c_weighted_loss (y t : list (list R)) (w : list R) (acc : accumulator) : R :=
  let loss_sum := fsum (zipr Rmult (map (fun p => row_cross_entropy (fst p) (snd p)) (combine y t)) w) in
  match acc with Mean => loss_sum / INR (length y) | Sum => loss_sum end.
(** categorical_dqn.py:184-211 [_compute_loss] after [_compute_y_and_t]: the loss and what is put into [errors_out]. *)
Definition c_compute_loss (y t : list (list R)) (weights : option (list R)) (acc : accumulator) : R * list R :=
  (match weights with Some w => c_weighted_loss y t w acc | None => c_value_loss y t acc end,
   map (fun p => row_cross_entropy (fst p) (snd p)) (combine y t)).
