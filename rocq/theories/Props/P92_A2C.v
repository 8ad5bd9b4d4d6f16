(** C92: the update of A2C is that of A3C, averaged over the steps and environments. *)
From Coq Require Import Reals List Arith Bool Lia Lra.
From Verif Require Import Base.PyBase Model.PolicyGradient Model.A2CUpdate Spec.SumSpec Spec.A2CSpec Proofs.A2CProofs.
Import ListNotations.
Local Open Scope R_scope.

(** With any number of environments and steps, the loss of A2C is the sum of the losses of A3C on the pieces between
    ends of episodes of each environment, divided by the number of steps: no environment's rewards, values or actions
    meet those of another, and nothing passes over the end of an episode. *)
Theorem C92_a3c : forall St Act (value : R -> St -> R) (log_prob : R -> St -> Act -> R) entropy c c3 cols theta0 (rounds : list (list (cell St Act))) last theta,
  same_objective c c3 -> a2_use_gae c = false -> (0 < cols)%nat -> rectangular cols rounds -> length last = cols ->
  a2c_loss value log_prob entropy c cols theta0 rounds last theta =
  sum_below cols (fun j => total_of (fun p => a3c_total c3 theta0 (snd p) (map (as_step value log_prob entropy) (fst p)) theta)
                                    (pieces (of_env j rounds) (nth j (map (value theta0) last) 0))) / INR (length rounds * cols).
Proof. exact @a2c_is_a3c. Qed.
(** With or without GAE, the loss for several environments is the average of the losses each would give alone. *)
Theorem C92_environments : forall St Act (value : R -> St -> R) (log_prob : R -> St -> Act -> R) entropy c cols theta0 (rounds : list (list (cell St Act))) last theta,
  (0 < cols)%nat -> rounds <> [] -> rectangular cols rounds -> length last = cols ->
  a2c_loss value log_prob entropy c cols theta0 rounds last theta =
  sum_below cols (fun j => a2c_loss value log_prob entropy c 1 theta0 (map (fun x => [x]) (of_env j rounds)) (of_env j [last]) theta) / INR cols.
Proof. exact @environments. Qed.
(** GAE with tau = 1 gives the same loss as no GAE. *)
Theorem C92_gae_one : forall St Act (value : R -> St -> R) (log_prob : R -> St -> Act -> R) entropy c cols theta0 (rounds : list (list (cell St Act))) last theta,
  (0 < cols)%nat -> rectangular cols rounds -> length last = cols -> a2_tau c = 1 ->
  a2c_loss value log_prob entropy c cols theta0 rounds last theta =
  a2c_loss value log_prob entropy (mk_a2c_conf (a2_gamma c) (a2_tau c) false (a2_pi_coef c) (a2_v_coef c) (a2_entropy_coef c)) cols theta0 rounds last theta.
Proof. exact @gae_tau_one. Qed.
(** The pieces are the experience, in order, and all but the last end where an episode ends. *)
Theorem C92_pieces : forall St Act (l : list (cell St Act)) last, concat (map fst (pieces l last)) = l /\
  exists done p, pieces l last = done ++ [(p, last)] /\ Forall (fun x => e_done x = false) p /\
    Forall (fun q => snd q = 0 /\ exists q' x, fst q = q' ++ [x] /\ e_done x = true /\ Forall (fun y => e_done y = false) q') done.
Proof. exact @pieces_spec. Qed.
(** A2C says that it does not support training with a single environment when asked to: not for act_and_train, which lacks
    the parameter self. *)
Theorem C92_single_refuted : forall T : Type, @a2c_stop_and_train_single T = Raise RuntimeError /\ @a2c_act_and_train_single T <> Raise RuntimeError.
Proof. exact single_refuted. Qed.
Print Assumptions C92_a3c.
Print Assumptions C92_environments.
Print Assumptions C92_gae_one.
Print Assumptions C92_pieces.
Print Assumptions C92_single_refuted.

(** Two environments for two steps, the first of which ends an episode after its first step. *)
Example C92_example :
  let value := fun (t : R) (s : nat) => t * INR s in 
  let rounds := [[mk_cell 1 1 5 true; mk_cell 2 0 1 false]; [mk_cell 3 0 2 false; mk_cell 1 1 4 false]]%nat in
  let last := [2; 4]%nat in let c := mk_a2c_conf (1/2) 1 false 1 (1/2) (1/100) in let c3 := mk_a3c_conf (1/2) (1/100) 1 1 2 false false in
  same_objective c c3 /\ rectangular 2 rounds /\ length last = 2%nat /\
  pieces (of_env 0 rounds) 7 = [([mk_cell 1%nat 1%nat 5 true], 0); ([mk_cell 3%nat 0%nat 2 false], 7)] /\
  a2_returns value c 2 1 rounds last = [[5; 4]; [3; 6]].
Proof.
  cbv zeta. split; [|split; [|split; [|split]]].
  - repeat split; cbn; lra.
  - intros row [<-|[<-|[]]]; reflexivity.
  - reflexivity.
  - reflexivity.
  - unfold a2_returns. cbn [a2_use_gae a2_gamma a2_rewards a2_masks map plain_returns Distributions.zipr hd e_reward e_done]. cbn [INR].
    repeat f_equal; lra.
Qed.
