(** C110: IQN evaluates every sample and threshold on its own. *)
From Coq Require Import Reals List Arith Lia Lra.
From Verif Require Import Base.PyBase Model.Targets Model.ActionValue Model.IQNNet Spec.IQNNetSpec Proofs.IQNNetProofs.
Import ListNotations.
Local Open Scope R_scope.

(** For any batch, any number of thresholds and any layers, the quantiles of a sample at a threshold are those of the sample and the threshold alone. *)
Theorem C110_network : forall n_basis lin f psi_x taus n hidden,
  length taus = length psi_x -> rows_of hidden psi_x -> rows_of n taus -> (forall h, length (lin h) = hidden) ->
  evaluate_taus (cosine_linear n_basis lin) f psi_x taus = Ok (map (fun z => map (alone n_basis lin f (fst z)) (snd z)) (combine psi_x taus)).
Proof. exact network_alone. Qed.

(** The loss of a batch is the sum or the average of the losses of its samples, with weights the weighted sum or that divided by the size of the batch, and the errors reported for
    priorities are the losses of the samples divided by the number of thresholds. *)
Theorem C110_loss : forall y t taus N N', y <> [] -> (0 < N)%nat -> (0 < N')%nat -> length taus = length y -> length t = length y ->
  rows_of N y -> rows_of N taus -> rows_of N' t ->
  exists e, eltwise_loss y t taus = Ok e /\
    iqn_value_loss e Sum = total (samples y taus t) /\ iqn_value_loss e Mean = average (samples y taus t) /\
    (forall w, iqn_weighted_value_loss e w Sum = total (times (samples y taus t) w) /\
               iqn_weighted_value_loss e w Mean = total (times (samples y taus t) w) / INR (length y)) /\
    iqn_errors e = map (fun s => s / INR N) (samples y taus t).
Proof. exact loss_samples. Qed.

(** Different thresholds have different embeddings, whatever the number of basis functions. *)
Theorem C110_thresholds : forall n a b, (0 < n)%nat -> 0 <= a <= 1 -> 0 <= b <= 1 -> cosine_basis n a = cosine_basis n b -> a = b.
Proof. exact embedding_inj. Qed.

(** Acting deterministically with two or more thresholds values actions by the exact means of their return distributions whenever these are symmetric. *)
Theorem C110_deterministic : forall n_basis lin f psi_x hidden K A ms, (2 <= K)%nat -> rows_of hidden psi_x -> (forall h, length (lin h) = hidden) ->
  Forall2 (fun x m => symmetric (alone n_basis lin f x) m) psi_x ms -> rows_of A ms ->
  exists out, evaluate_taus (cosine_linear n_basis lin) f psi_x (deterministic_taus K (length psi_x)) = Ok out /\ quant_qvalues A out = ms.
Proof. exact deterministic_values. Qed.

(** With a single threshold it values them by their worst returns instead. *)
Theorem C110_one_threshold_refuted : exists q m, symmetric q m /\ quant_qvalues 1 [map q (linspace01 1)] <> [m].
Proof. exact one_threshold. Qed.

(** Two samples with three thresholds and two features. *)
Example C110_network_case : forall n_basis, let lin := fun h : list R => [nth 0 h 0; nth 1 h 1] in let psi := [[1; 2]; [3; 4]] in let taus := [[0; 1; / 2]; [/ 3; 0; 1]] in
  length taus = length psi /\ rows_of 2 psi /\ rows_of 3 taus /\ (forall h, length (lin h) = 2%nat) /\
  exists out, evaluate_taus (cosine_linear n_basis lin) (fun h => h) psi taus = Ok out /\ length out = 2%nat /\ rows_of 3 out.
Proof.
  intros n_basis lin psi taus. assert (A1 : rows_of 2 psi) by (repeat constructor). assert (A2 : rows_of 3 taus) by (repeat constructor). assert (A3 : forall h, length (lin h) = 2%nat) by reflexivity.
  split; [reflexivity|]. split; [exact A1|]. split; [exact A2|]. split; [exact A3|]. eexists. split; [apply (C110_network n_basis lin (fun h => h) psi taus 3 2 eq_refl A1 A2 A3)|].
  split; [reflexivity|repeat constructor].
Qed.
Example C110_loss_case : let y := [[1; 2]; [3; 4]] in let taus := [[/ 2; / 4]; [/ 3; / 5]] in let t := [[0; 1; 5]; [2; 2; 9]] in
  y <> [] /\ length taus = length y /\ length t = length y /\ rows_of 2 y /\ rows_of 2 taus /\ rows_of 3 t.
Proof. cbn. repeat split; try discriminate; repeat constructor. Qed.
(** A sample whose quantiles are symmetric. *)
Example C110_deterministic_case : forall n, exists lin f m, symmetric (alone (S n) lin f [1]) m /\ m = [1; 5] /\ (forall h, length (lin h) = 1%nat) /\
  alone (S n) lin f [1] 0 <> alone (S n) lin f [1] 1.
Proof.
  intros n. exists (fun h => [nth 0 h 0]), (fun h => [1 + nth 0 h 0; 5 - nth 0 h 0]), [1; 5].
  assert (E : forall tau, alone (S n) (fun h => [nth 0 h 0]) (fun h => [1 + nth 0 h 0; 5 - nth 0 h 0]) [1] tau = [1 + cos (PI * tau); 5 - cos (PI * tau)]).
  { intros tau. unfold alone, embedding. cbn [seq map nth times]. change (INR 1) with 1. rewrite Rmult_1_r, Rmult_1_l. reflexivity. }
  split; [|split; [reflexivity|split; [reflexivity|]]].
  - intros tau _. rewrite !E. split; [reflexivity|]. assert (C : cos (PI * (1 - tau)) = - cos (PI * tau)).
    { replace (PI * (1 - tau)) with (- (PI * tau) + PI) by ring. rewrite neg_cos, cos_neg. reflexivity. }
    intros [|[|[|a]]]; cbn; rewrite ?C; lra.
  - rewrite !E, Rmult_0_r, Rmult_1_r, cos_0, cos_PI. intros X. injection X as X. lra.
Qed.

Print Assumptions C110_network.
Print Assumptions C110_loss.
Print Assumptions C110_thresholds.
Print Assumptions C110_deterministic.
Print Assumptions C110_one_threshold_refuted.
