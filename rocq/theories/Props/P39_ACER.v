(** C39, C40 and C59: ACER. *)
From Coq Require Import Reals List Lra.
From Verif Require Import Base.PyBase Model.ConjugateGradient Model.Acer Spec.LinearSpec Spec.SumSpec Spec.AcerSpec Proofs.AcerProofs.
Import ListNotations.
Local Open Scope R_scope.

(** C39: if [k <> 0] the direction satisfies [k.z <= delta] and is at least as close
    to [g] as every vector that does; it is [g] itself when [g] does, and when
    [k = 0]. *)
Theorem C39_trust_region : forall g k delta, map (@length R) k = map (@length R) g ->
  let z := kl_constrained_direction g k delta in
  map (@length R) z = map (@length R) g /\
  (nonzero (concat k) ->
     dot (concat k) (concat z) <= delta /\
     (forall y, length y = length (concat g) -> dot (concat k) y <= delta ->
        dot (vsub (concat z) (concat g)) (vsub (concat z) (concat g)) <= dot (vsub y (concat g)) (vsub y (concat g))) /\
     (dot (concat k) (concat g) <= delta -> concat z = concat g)) /\
  (~ nonzero (concat k) -> concat z = concat g).
Proof. exact trust_region. Qed.
Print Assumptions C39_trust_region.

Example C39_used : let g := [[3]; [4; 1]] in let k := [[1]; [1; 0]] in
  map (@length R) k = map (@length R) g /\ nonzero (concat k) /\ ~ dot (concat k) (concat g) <= 1 /\
  kl_constrained_direction g k 1 = [[0]; [1; 1]].
Proof.
  cbn. split; [reflexivity|]. split; [exists 1; split; [left; reflexivity|lra]|]. split; [lra|].
  unfold kl_constrained_direction, k_factor. cbn. destruct (Rlt_dec 0 _) as [H|H]; [|lra].
  rewrite Rmax_right by (replace ((_ - 1) / _) with 3 by field; lra).
  unfold vsub, vscale. cbn. repeat f_equal; field.
Qed.

(** C40: the expectation under the behaviour policy of ACER's loss weights is that of
    the on-policy gradient, whatever the log-probabilities (hence their gradients),
    the values and the truncation threshold are. *)
Theorem C40_unbiased : forall huge c v (acts : list act), 0 <= c ->
  (forall x, In x acts -> 0 <= a_pi x /\ 0 < a_mu x) -> total_of a_mu acts = 1 ->
  exists loss, (forall x, In x acts -> policy_gradient_loss huge true (Some c) acts v x (a_q x - v) = Ok (loss x)) /\
    total_of (fun x => a_mu x * loss x) acts = - total_of (fun x => a_pi x * a_lp x * (a_q x - v)) acts.
Proof. exact unbiased. Qed.
Print Assumptions C40_unbiased.

Theorem C40_untruncated : forall huge v (acts : list act), (forall x, In x acts -> 0 < a_mu x) ->
  exists loss, (forall x, In x acts -> policy_gradient_loss huge true None acts v x (a_q x - v) = Ok (loss x)) /\
    total_of (fun x => a_mu x * loss x) acts = - total_of (fun x => a_pi x * a_lp x * (a_q x - v)) acts.
Proof. exact untruncated. Qed.
Print Assumptions C40_untruncated.

(** C40: the correction with one action sampled from the policy has the correction
    over all actions as its expectation, and its assertion never fails. *)
Theorem C40_sampled_correction : forall huge c v (acts : list act), 0 < c -> (forall x, In x acts -> 0 < a_pi x /\ 0 <= a_mu x) ->
  exists corr, (forall x, In x acts -> sample_correction c v x = Ok (corr x)) /\
    total_of (fun x => a_pi x * corr x) acts = full_correction huge c v acts.
Proof. exact sampled_correction. Qed.
Print Assumptions C40_sampled_correction.

(** C40: both weights are bounded. *)
Theorem C40_weights_bounded : forall huge c x, 0 <= c -> 0 <= huge -> 0 <= a_pi x -> 0 < a_mu x ->
  Rmin c (a_pi x / a_mu x) <= c /\ 0 <= correction_weight huge c x <= a_pi x.
Proof. exact weights_bounded. Qed.
Print Assumptions C40_weights_bounded.

Definition ex_acts : list act := [mk_act (9 / 10) (1 / 10) (-1) 5; mk_act (1 / 10) (9 / 10) (-3) 2].
Example C40_used : (forall x, In x ex_acts -> 0 < a_pi x /\ 0 < a_mu x) /\ total_of a_mu ex_acts = 1.
Proof. split; [intros x [<-|[<-|[]]]; cbn; lra|]. unfold total_of. cbn. lra. Qed.

(** The weight of an action of behaviour probability zero, for instance by underflow,
    is not a large number but an exception. *)
Theorem C40_zero_behaviour_probability_refuted : forall huge c acts v x advantage, a_mu x = 0 ->
  policy_gradient_loss huge true c acts v x advantage = Raise ZeroDivisionError.
Proof.
  intros huge c acts v x adv E. unfold policy_gradient_loss, compute_importance. rewrite E.
  destruct (Req_EM_T 0 0); [reflexivity|congruence].
Qed.
Print Assumptions C40_zero_behaviour_probability_refuted.

(** C59: the return used at each step is the Retrace estimate with the coefficients
    min(1, rho) (min(1, rho^(1/d)) for continuous actions), and the other one the
    same with all coefficients one. *)
Theorem C59_retrace : forall gamma discrete dim last h t, (t < length h)%nat ->
  nth_error (fst (acer_returns gamma discrete dim last h)) t =
  Some (retrace gamma last (trace_coef discrete dim) h t, retrace gamma last (fun _ => 1) h t).
Proof. exact retrace_returns. Qed.
Print Assumptions C59_retrace.

(** The coefficients are min(1, rho), and the d-th root of it for continuous
    actions. *)
Theorem C59_discrete_coefficients : forall dim rho, trace_coef true dim rho = Rmin 1 rho.
Proof. exact trace_coef_discrete. Qed.
Print Assumptions C59_discrete_coefficients.
Theorem C59_continuous_coefficients : forall dim rho, (0 < dim)%nat -> 0 <= rho ->
  let c := trace_coef false dim rho in
  0 <= c <= 1 /\ (rho <= 1 -> c ^ dim = rho) /\ (1 <= rho -> c = 1).
Proof. exact trace_coef_continuous. Qed.
Print Assumptions C59_continuous_coefficients.

Example C59_used : let h := [mk_hstep 1 2 3 (1 / 2); mk_hstep 4 5 6 (1 / 4)] in
  retrace 1 7 (trace_coef true 1) h 0 = 1 + 5 + (1 / 4) * (4 + 7 - 6).
Proof.
  unfold retrace, q_at, q_error, next_value, coef, trace_coef. cbn. rewrite Rmin_right by lra. field.
Qed.
