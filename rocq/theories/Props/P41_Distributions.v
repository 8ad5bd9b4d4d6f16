(** C41 and C43: mellowmax and distributions. *)
From Coq Require Import Reals List Lia Lra.
From Verif Require Import Base.PyBase Model.Distributions Spec.SumSpec Spec.DistributionSpec Proofs.DistributionProofs.
Import ListNotations.
Local Open Scope R_scope.

(** C41: mellowmax lies between the mean and the maximum (and above the minimum). *)
Theorem C41_between_mean_and_max : forall omega values hi, 0 < omega -> values <> [] -> (forall x, In x values -> x <= hi) ->
  mean values <= mellowmax omega values <= hi.
Proof. intros omega values hi W NE H. split; [exact (mm_mean omega W values NE)|exact (proj1 (mm_bounds omega W values hi NE) H)]. Qed.
Print Assumptions C41_between_mean_and_max.

(** C41: it is monotone. *)
Theorem C41_monotone : forall omega values values', 0 < omega -> values <> [] -> Forall2 Rle values values' ->
  mellowmax omega values <= mellowmax omega values'.
Proof. intros omega values values' W. exact (mm_mono omega W values values'). Qed.
Print Assumptions C41_monotone.

(** C41: it moves by at most the largest change of a value. *)
Theorem C41_non_expansion : forall omega values values' d, 0 < omega -> values <> [] ->
  Forall2 (fun x y => Rabs (x - y) <= d) values values' -> Rabs (mellowmax omega values - mellowmax omega values') <= d.
Proof. intros omega values values' d W. exact (mm_nonexpansion omega W values values' d). Qed.
Print Assumptions C41_non_expansion.

Example C41_used : mean [0; 1] = / 2 /\ Forall2 Rle [0; 1] [0; 2] /\ Forall2 (fun x y => Rabs (x - y) <= 1) [0; 1] [0; 2].
Proof.
  split; [unfold mean, total_of; cbn; lra|]. split.
  - constructor; [lra|]. constructor; [lra|constructor].
  - constructor; [apply Rabs_le; lra|]. constructor; [apply Rabs_le; lra|constructor].
Qed.

(** C41: the bracket given to the root finder always contains a sign change, so its
    ValueError branch is never taken. *)
Theorem C41_root_bracketed : forall values beta_min beta_max, values <> [] -> beta_min <= 0 -> 1 <= beta_max ->
  let adv := map (fun v => v - mellowmax 1 values) values in
  root_function adv beta_min * root_function adv beta_max <= 0.
Proof. exact root_bracketed. Qed.
Print Assumptions C41_root_bracketed.

(** C41, partial: the policy is a probability vector whose expected value is mellowmax
    at omega = 1, and no other such vector has a larger entropy.  Missing: the same for
    the configured omega, which the code ignores (next theorem). *)
Theorem C41_maximum_entropy_partial : forall brentq omega beta_min beta_max values, values <> [] -> beta_min <= 0 -> 1 <= beta_max ->
  finds_root brentq (root_function (map (fun v => v - mellowmax 1 values) values)) beta_min beta_max ->
  let p := maximum_entropy_mellowmax brentq omega beta_min beta_max values in
  length p = length values /\ probability p /\ expectation p values = mellowmax 1 values /\
  forall p', length p' = length values -> probability p' -> expectation p' values = mellowmax 1 values -> shannon p' <= shannon p.
Proof. exact max_ent_spec. Qed.
Print Assumptions C41_maximum_entropy_partial.

(** C41, refuted part: MellowmaxDistribution(values, omega=8) does not have the
    expectation mellowmax(values, omega=8). *)
Theorem C41_configured_omega_refuted : exists values omega, values <> [] /\ 0 < omega /\
  forall brentq, finds_root brentq (root_function (map (fun v => v - mellowmax 1 values) values)) (-10) 10 ->
    expectation (all_prob (MellowmaxDistribution brentq omega values)) values < mellowmax omega values.
Proof. exists [0; 1], 8. split; [discriminate|]. split; [lra|exact omega_ignored]. Qed.
Print Assumptions C41_configured_omega_refuted.

(** A root finder with the assumed property exists: the function is continuous. *)
Example C41_root_exists : exists brentq, finds_root brentq (root_function (map (fun v => v - mellowmax 1 [0; 1]) [0; 1])) (-10) 10.
Proof.
  set (f := root_function (map (fun v => v - mellowmax 1 [0; 1]) [0; 1])).
  assert (C : continuity f) by (unfold f, root_function, fsum; cbn [map fold_right]; apply derivable_continuous; intros x; reg).
  destruct (IVT_cor f (-10) 10 C) as (z & Hz & Ez); [lra|apply (C41_root_bracketed [0; 1]); [discriminate|lra|lra]|].
  exists (fun _ _ _ => Some z). intros _. exists z. auto.
Qed.

(** C43: the probabilities of SoftmaxDistribution are a probability vector, each at
    least min_prob, and the log probabilities are their logarithms; construction fails
    exactly when min_prob * n exceeds one. *)
Theorem C43_softmax_proper : forall logits beta min_prob, logits <> [] ->
  (min_prob * INR (length logits) <= 1 <-> exists d, SoftmaxDistribution logits beta min_prob = Ok d) /\
  forall d, SoftmaxDistribution logits beta min_prob = Ok d ->
    length (all_prob d) = length logits /\ proper d /\ forall x, In x (all_prob d) -> min_prob <= x.
Proof.
  intros logits beta mp NE. split; [apply softmax_accepts|]. intros d E.
  destruct (softmax_distribution logits beta mp d NE E) as (L & P & B & G). unfold proper. firstorder.
Qed.
Print Assumptions C43_softmax_proper.

(** C43: entropy is Shannon's and lies in [0, ln n]. *)
Theorem C43_entropy : forall d, proper d -> cat_entropy d = shannon (all_prob d) /\
  (all_prob d <> [] -> 0 <= cat_entropy d <= ln (INR (length (all_prob d)))).
Proof.
  intros d P. split; [apply cat_entropy_shannon, P|]. intros NE. rewrite (cat_entropy_shannon d P). apply shannon_bounds; [exact NE|apply P].
Qed.
Print Assumptions C43_entropy.

(** C43: the divergence is non-negative and zero exactly between equal distributions. *)
Theorem C43_categorical_kl : forall p q, proper p -> proper q -> length (all_prob p) = length (all_prob q) ->
  0 <= cat_kl p q /\ (cat_kl p q = 0 <-> all_prob p = all_prob q).
Proof.
  intros p q P Q L. rewrite (cat_kl_relative p q P Q L). apply gibbs; [exact L|apply P|apply Q|apply Q].
Qed.
Print Assumptions C43_categorical_kl.

Theorem C43_most_probable : forall d, all_prob d <> [] ->
  exists i m, most_probable d = Ok i /\ nth_error (all_prob d) i = Some m /\ forall x, In x (all_prob d) -> x <= m.
Proof. exact most_probable_spec. Qed.
Print Assumptions C43_most_probable.

Example C43_softmax_used : exists d, SoftmaxDistribution [1; -3] 2 (/ 10) = Ok d /\ all_prob d <> [].
Proof.
  destruct (C43_softmax_proper [1; -3] 2 (/ 10) ltac:(discriminate)) as [[A _] B]. destruct A as [d E]; [cbn; lra|].
  exists d. split; [exact E|]. destruct (B d E) as (L & _). destruct (all_prob d); [discriminate L|discriminate].
Qed.

(** C43: the Gaussian divergence is non-negative and zero exactly on equal parameters. *)
Theorem C43_gaussian_kl : forall p q, same_dim p q -> positive p -> positive q -> 0 <= gauss_kl p q /\ (gauss_kl p q = 0 <-> p = q).
Proof. exact gauss_kl_spec. Qed.
Print Assumptions C43_gaussian_kl.

(** C43: the mean has the largest density. *)
Theorem C43_gaussian_mode : forall d x, positive d -> length (g_mean d) = length (g_var d) -> length x = length (g_mean d) ->
  gauss_log_prob d x <= gauss_log_prob d (g_mean d).
Proof. exact gauss_mode. Qed.
Print Assumptions C43_gaussian_mode.

(** C43: entropy and divergence are the averages of -log p and of log p - log q under
    any distribution with the mean and variance of p. *)
Theorem C43_gaussian_closed_forms : forall E m v m' v', 0 < v -> 0 < v' -> averages E m v ->
  E (fun x => - gauss_log_prob (mk_gaussian [m] [v]) [x]) = gauss_entropy (mk_gaussian [m] [v]) /\
  E (fun x => gauss_log_prob (mk_gaussian [m] [v]) [x] - gauss_log_prob (mk_gaussian [m'] [v']) [x]) =
  gauss_kl (mk_gaussian [m] [v]) (mk_gaussian [m'] [v']).
Proof. exact gauss_moments. Qed.
Print Assumptions C43_gaussian_closed_forms.

Example C43_averages_used : averages (fun f => (f 3 + f (-1)) / 2) 1 4.
Proof. split; [intros f g H; rewrite !H; reflexivity|]. repeat split; intros; field. Qed.
Example C43_gaussian_used : same_dim (mk_gaussian [0; 1] [1; 2]) (mk_gaussian [3; 1] [4; 2]) /\ positive (mk_gaussian [0; 1] [1; 2]).
Proof. split; [repeat split|]. intros v [<-|[<-|[]]]; lra. Qed.

(** C43: the log determinant used by the squashed Gaussian is log(1 - tanh^2) and its
    exponential is the derivative of tanh. *)
Theorem C43_tanh_log_det : forall x, tanh_log_det x = ln (1 - tanh x ^ 2) /\ derivable_pt_lim tanh x (exp (tanh_log_det x)).
Proof. exact tanh_log_det_spec. Qed.
Print Assumptions C43_tanh_log_det.

(** C43: a squashed sample lies strictly inside (-1, 1), and the log probability
    returned with it is the one log_prob gives for it. *)
Theorem C43_squashed_sample : forall d x, squashed_log_prob d (fst (squashed_sample d x)) = snd (squashed_sample d x) /\
  forall y, In y (fst (squashed_sample d x)) -> -1 < y < 1.
Proof. exact squashed_consistent. Qed.
Print Assumptions C43_squashed_sample.
