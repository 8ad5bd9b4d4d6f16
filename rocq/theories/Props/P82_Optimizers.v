(** C82: the optimizer for asynchronous methods, and weight decay without biases. *)
From Coq Require Import Reals List String Arith Lia Lra.
From Verif Require Import Base.PyBase Model.Distributions Model.Optimizers Spec.SumSpec Spec.OptimizerSpec Proofs.OptimizerProofs.
Import ListNotations.
Local Open Scope R_scope.

(** Training a model with any parameters for any number of steps moves every entry of every
    parameter as RMSprop of that entry alone, with weight decay unless the parameter is named
    "b".  A missing gradient counts as 0. *)
Theorem C82_training : forall hp rate steps model, fresh model -> Forall (fits model) steps ->
  forall i s a, nth_error model i = Some s -> p_array s = Some a -> exists s' a', nth_error (train hp rate model steps) i = Some s' /\ p_name s' = p_name s /\ p_array s' = Some a' /\ List.length a' = List.length a /\
    forall j, (j < List.length a)%nat -> nth j a' 0 = fst (fold_left (rms_step hp (decay_of rate (p_name s))) (map (fun g => entry_of g i j) steps) (nth j a 0, 0)).
Proof. exact train_ok. Qed.
(** No step is larger than [lr / sqrt (1 - alpha)], whatever the gradients are; each step goes
    against the gradient (with decay), and there is none if that is 0. *)
Theorem C82_steps : forall hp decay gs p0 g, 0 <= alpha hp < 1 -> 0 < eps hp -> 0 <= lr hp ->
  let p := fst (fold_left (rms_step hp decay) gs (p0, 0)) in let p' := fst (fold_left (rms_step hp decay) (gs ++ [g]) (p0, 0)) in let d := g + decay * p in
  Rabs (p' - p) <= lr hp / sqrt (1 - alpha hp) /\ (p' - p) * d <= 0 /\ (d = 0 -> p' = p) /\ (0 < lr hp -> d <> 0 -> (p' - p) * d < 0).
Proof. exact run_step. Qed.
(** The decayed gradient is the gradient of the loss plus [rate / 2] times the square. *)
Theorem C82_penalty : forall loss x g rate, derivable_pt_lim loss x g -> derivable_pt_lim (fun y => loss y + rate / 2 * (y * y)) x (g + rate * x).
Proof. exact decay_is_penalty. Qed.
(** REFUTED: the documentation's "epsilon is outside the square root".  The first step is smaller
    than that formula gives, for all small gradients. *)
Theorem C82_documented_eps_refuted : forall hp p g, 0 <= alpha hp <= 1 -> 0 < lr hp -> 0 < eps hp < 1 -> g <> 0 -> let m := (1 - alpha hp) * (g * g) in 2 * sqrt m + eps hp < 1 ->
  Rabs (fst (rms_step hp 0 (p, 0) g) - p) < Rabs (lr hp * g / (sqrt m + eps hp)).
Proof. exact eps_inside. Qed.
Print Assumptions C82_training.
Print Assumptions C82_steps.
Print Assumptions C82_penalty.
Print Assumptions C82_documented_eps_refuted.

(** A weight and a bias; the bias gets a gradient only in the second step. *)
Definition two : list slot := [mk_slot "W" (Some [1; 2]) None None; mk_slot "b" (Some [5]) None None].
Definition two_steps : list (list (option (list R))) := [[Some [3; 4]; None]; [Some [0; 0]; Some [1]]].
Example C82_ex_training : fresh two /\ Forall (fits two) two_steps.
Proof.
  split; [repeat constructor; discriminate|].
  repeat constructor; cbn; intros a v E1 E2; try discriminate; injection E1 as <-; injection E2 as <-; reflexivity.
Qed.
(** The decay moves the weight, not the bias. *)
Example C82_ex_bias : exists w1 w2 b, map p_array (train (mk_hyper 1 0 3) (Some 1) two [[Some [0; 0]; None]]) = [Some [w1; w2]; Some [b]] /\ w1 = 1 - 1 / 2 /\ b = 5.
Proof.
  eexists _, _, _. split; [reflexivity|]. split.
  - cbn [lr alpha eps]. replace (0 * 0 + (1 - 0) * (0 + 1 * 1) * (0 + 1 * 1) + 3) with (2 * 2) by ring. rewrite sqrt_square by lra. lra.
  - unfold Rdiv. ring.
Qed.
Example C82_ex_first : fst (rms_step (mk_hyper 1 0 9) 0 (7, 0) 4) = 7 - 4 / 5.
Proof. unfold rms_step. cbn [fst lr alpha eps]. replace (0 * 0 + (1 - 0) * ((4 + 0 * 7) * (4 + 0 * 7)) + 9) with (5 * 5) by ring. rewrite sqrt_square by lra. lra. Qed.
Example C82_ex_eps : let m := (1 - 99 / 100) * ((/ 10) * (/ 10)) in 2 * sqrt m + / 10 < 1.
Proof. cbv zeta. replace ((1 - 99 / 100) * (/ 10 * / 10)) with (/ 100 * / 100) by field. rewrite sqrt_square by lra. lra. Qed.
