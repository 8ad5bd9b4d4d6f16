(** C99: importance weights make up for prioritized sampling, for items that are drawn one at a time. *)
From Coq Require Import QArith Qreals Reals List Lia.
From Coq Require Import Lqa Lra.
From Verif Require Import Base.PyBase Model.Num Model.Random Model.TreeQueue Model.PrioritizedBuffer Model.PriorityWeight.
From Verif Require Import Spec.SumSpec Spec.RandomSpec Spec.PrioritySpec Spec.PrioritizedBufferSpec Spec.FairSpec Spec.ImportanceSpec Proofs.ImportanceProofs.
Import ListNotations.
Local Open Scope nat_scope.

(** With every documented use of a buffer, single samples on average contribute to a sum what their probabilities and weights say: for
    draws of np.random.uniform on any fine enough grid, any ratio of uniform samples, any exponent and any normalisation. *)
Theorem C99_expected : forall X (cap : option nat) m0 us, (0 < m0)%Q -> safe cap ([], m0) us ->
  exists os b l m, use_run (@pb_init QNum X cap true m0) us = Ok (os, b) /\ stores b l m /\
    (l <> [] -> exists mn M0, is_minQ (map snd l) mn /\ 0 < M0 /\ forall w f ur c B, (0 <= ur <= 1)%Q -> 0 < c ->
      (forall p, In p (map snd l) -> 0 < sel_prob ur (map snd l) p)%Q /\
      mean_weighted b w f ur (c * M0) B = total_of (fun e => Q2R (sel_prob ur (map snd l) (snd e)) * single_share w f ur l mn e)%R l).
Proof. exact @expected_reach. Qed.
(** Once beta has become 1, this is the mean over all stored items, whatever their priorities, if the weights are not normalised; it is proportional to it, with the least probability as factor,
    if they are normalised by the maximum in memory. *)
Theorem C99_unbiased : forall X (cap : option nat) m0 us, (0 < m0)%Q -> safe cap ([], m0) us ->
  exists os b l m, use_run (@pb_init QNum X cap true m0) us = Ok (os, b) /\ stores b l m /\
    (l <> [] -> exists mn M0, is_minQ (map snd l) mn /\ 0 < M0 /\ forall w f ur c B, (0 <= ur <= 1)%Q -> 0 < c -> w_beta w = 1%R -> w_norm w <> NormBatch ->
      (0 < sel_prob ur (map snd l) mn)%Q /\
      mean_weighted b w f ur (c * M0) B = (match w_norm w with NormFalse => / INR (length l) | _ => Q2R (sel_prob ur (map snd l) mn) end * total_of f (pb_data b))%R).
Proof. exact unbiased. Qed.
(** If they are normalised by the maximum in the batch, which is the default, there is no correction, whatever beta is: *)
Theorem C99_batch : forall X (cap : option nat) m0 us, (0 < m0)%Q -> safe cap ([], m0) us ->
  exists os b l m, use_run (@pb_init QNum X cap true m0) us = Ok (os, b) /\ stores b l m /\
    (l <> [] -> exists M0, 0 < M0 /\ forall w f ur c B, (0 <= ur <= 1)%Q -> 0 < c -> w_norm w = NormBatch ->
      mean_weighted b w f ur (c * M0) B = total_of (fun e => Q2R (sel_prob ur (map snd l) (snd e)) * f (fst e))%R l).
Proof. exact batch_biased. Qed.
(** of two items with priorities 1 and 3 the second counts three times as much. *)
Theorem C99_batch_refuted : forall w, w_norm w = NormBatch -> exists os b M0, use_run (pb_init QNum None true 1%Q) two_items = Ok (os, b) /\ 0 < M0 /\ forall f c B, 0 < c ->
  mean_weighted b w f 0 (c * M0) B = (1 / 4 * f 0%nat + 3 / 4 * f 1%nat)%R.
Proof. exact batch_refuted. Qed.
(** A larger sample has no item twice, but its probabilities are those of single draws.  In the extreme case it has all items once, *)
Theorem C99_whole : forall X (cap : option nat) m0 us w (f : X -> R), (0 < m0)%Q -> safe cap ([], m0) us -> w_norm w <> NormBatch ->
  exists os b l m, use_run (@pb_init QNum X cap true m0) us = Ok (os, b) /\ stores b l m /\
    (l <> [] -> exists mn, is_minQ (map snd l) mn /\ forall d, draws_ok (length l) (length l) 0 d -> weighted b w f (length l) 0 d = total_of (single_share w f 0 l mn) l).
Proof. exact @whole_reach. Qed.
(** so that no correction is needed, but with beta 1 of two items with priorities 1 and 3 the first counts three times as much. *)
Theorem C99_whole_refuted : forall w, w_norm w = NormFalse -> w_beta w = 1%R -> exists os b, use_run (pb_init QNum None true 1%Q) two_items = Ok (os, b) /\ forall f d, draws_ok 2 2 0 d ->
  weighted b w f 2 0 d = (2 * f 0%nat + 2 / 3 * f 1%nat)%R.
Proof. exact whole_refuted. Qed.

(** Non-vacuity: the two items, weights with beta 1, and draws for both of them. *)
Example C99_history : safe None ([], 1%Q) two_items.
Proof. exact two_items_safe. Qed.
Example C99_weights : exists w, pwe_init (6/10) 1 None (1/100) NormFalse (Some 0%R) (Some 1%R) = Ok w /\ w_norm w = NormFalse /\ w_beta w = 1%R.
Proof.
  eexists. unfold pwe_init, Rleb. destruct (Rle_dec 0 (6/10)); [|lra]. destruct (Rle_dec 0 1); [|lra]. destruct (Rle_dec 1 1); [|lra]. cbn. repeat split.
Qed.
Example C99_draws : draws_ok 2 2 0 (mk_draws QNum 0 0 no_rng (fun _ => 1#2)).
Proof.
  split; [split; [apply Qle_refl|discriminate]|]. split; [cbn; lia|]. split; [lia|]. split; [intros k; split; [discriminate|reflexivity]|]. split.
  - split; [split; [reflexivity|]; split; [constructor|intros x []]|]. split; [reflexivity|]. split; [intros b _; reflexivity|intros b x []].
  - exists []. reflexivity.
Qed.

Print Assumptions C99_expected.
Print Assumptions C99_unbiased.
Print Assumptions C99_batch.
Print Assumptions C99_batch_refuted.
Print Assumptions C99_whole.
Print Assumptions C99_whole_refuted.
