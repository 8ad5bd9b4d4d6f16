(** Proofs about targets and losses. *)
From Coq Require Import Reals List Lia Lra.
From Verif Require Import Base.PyBase Model.ReplayUpdater Model.Distributions Model.Targets Spec.ReturnSpec Spec.SumSpec Spec.TargetSpec.
From Verif Require Import Proofs.ReplayUpdaterProofs Proofs.RSumFacts Proofs.DistributionProofs.
Import ListNotations.
Local Open Scope R_scope.

Lemma td_rows_map : forall X (f g v : X -> R) (t : X -> bool) l,
  td_rows (map f l) (map g l) (map t l) (map v l) = map (fun x => td_row (f x) (g x) (t x) (v x)) l.
Proof. induction l as [|x l IH]; [reflexivity|]. cbn. rewrite IH. reflexivity. Qed.
Lemma terminal_map : forall S A (exps : list (list (transition S A))) ts,
  Forall2 (fun e b => b = true <-> exists t, In t e /\ t_terminal t = true) exps ts -> ts = map (existsb (@t_terminal S A)) exps.
Proof.
  intros S A exps ts F. induction F as [|e b exps ts H F IH]; [reflexivity|]. cbn. rewrite <- IH. f_equal.
  destruct (existsb (@t_terminal S A) e) eqn:E; destruct b; try reflexivity.
  - apply existsb_exists in E. apply H in E. congruence.
  - destruct H as [H _]. specialize (H eq_refl). destruct H as (t & I & T). assert (X : existsb (@t_terminal S A) e = true) by (apply existsb_exists; exists t; auto). congruence.
Qed.
Lemma td_row_nstep : forall S A gamma (e : list (transition S A)) v,
  td_row (discounted gamma (map (@t_reward S A) e)) (gamma ^ length e) (existsb (@t_terminal S A) e) v = nstep_target gamma e v.
Proof. intros. unfold td_row, nstep_target, terminal_flag. destruct (existsb _ e); ring. Qed.

Section N.
  Context {S A S' : Type}.
  Variables (phi : S -> S') (gamma : R) (exps : list (list (transition S A))) (d : transition S A).
  Hypothesis NE : forall e, In e exps -> e <> [].
  Notation final e := (phi (t_next_state (last e d))).

  Theorem td_nstep : exists b, batch_experiences phi gamma exps = Ok b /\
    (forall next, td_targets next b = map (fun e => nstep_target gamma e (next (final e))) exps) /\
    forall quantiles, iqn_targets quantiles b = map (fun e => map (nstep_target gamma e) (quantiles (final e))) exps.
  Proof.
    destruct (batch_ok phi gamma exps d NE) as (b & E & _ & _ & B3 & B4 & B5 & B6 & _).
    exists b. split; [exact E|]. apply terminal_map in B6. split.
    - intros next. unfold td_targets. rewrite B3, B4, B5, B6, map_map, td_rows_map. apply map_ext. intros e. apply td_row_nstep.
    - intros qs. unfold iqn_targets. rewrite B3, B4, B5, B6. clear. induction exps as [|e l IH]; [reflexivity|]. cbn. f_equal; [|exact IH].
      apply map_ext. intros v. apply td_row_nstep.
  Qed.

  Theorem ddpg_nstep : exists b, batch_experiences phi gamma exps = Ok b /\
    forall U (act : S' -> U) q, ddpg_targets gamma act q b =
      map (fun e => discounted gamma (map (@t_reward S A) e) + (if existsb (@t_terminal S A) e then 0 else gamma * q (final e) (act (final e)))) exps.
  Proof.
    destruct (batch_ok phi gamma exps d NE) as (b & E & _ & _ & B3 & B4 & B5 & B6 & _).
    exists b. split; [exact E|]. apply terminal_map in B6. intros U act q. unfold ddpg_targets. rewrite B3, B4, B6, !map_map.
    rewrite (td_rows_map _ (fun e => discounted gamma (map (@t_reward S A) e)) (fun _ => gamma)).
    apply map_ext. intros e. unfold td_row, terminal_flag. destruct (existsb _ e); ring.
  Qed.
End N.

Lemma greedy_spec : forall qs, qs <> [] -> is_greedy (q_greedy qs) qs.
Proof.
  intros [|y l] NE; [congruence|]. unfold q_greedy. destruct (argmax_from_spec l [y] 0 y eq_refl) as (m & H1 & H2); [intros x [<-|[]]; lra|]. exists m. auto.
Qed.
Lemma evaluate_greedy : forall qs a, is_greedy a qs -> is_maximum (q_evaluate qs a) qs.
Proof.
  intros qs a (m & E & H). unfold q_evaluate. rewrite (nth_error_nth _ _ _ E). split; [apply nth_error_In in E; exact E|exact H].
Qed.
Lemma maximum_spec : forall qs, qs <> [] -> is_maximum (q_maximum qs) qs.
Proof. intros qs NE. apply evaluate_greedy, greedy_spec, NE. Qed.
Lemma maximum_unique : forall m m' l, is_maximum m l -> is_maximum m' l -> m = m'.
Proof. intros m m' l [I H] [I' H']. pose proof (H _ I'). pose proof (H' _ I). lra. Qed.

Lemma advantage_le : forall qs a, (a < length qs)%nat -> q_advantage qs a <= 0 /\ (is_greedy a qs -> q_advantage qs a = 0).
Proof.
  intros qs a L. assert (NE : qs <> []) by (destruct qs; [cbn in L; lia|discriminate]). unfold q_advantage. split.
  - pose proof (proj2 (maximum_spec qs NE) (q_evaluate qs a) (nth_In qs 0 L)). lra.
  - intros G. rewrite (maximum_unique _ _ qs (evaluate_greedy qs a G) (maximum_spec qs NE)). ring.
Qed.
Theorem al_spec : forall alpha t_q qs a, 0 <= alpha -> (a < length qs)%nat ->
  al_target alpha t_q qs a <= t_q /\ (is_greedy a qs -> al_target alpha t_q qs a = t_q).
Proof.
  intros alpha t_q qs a Ha L. destruct (advantage_le qs a L) as [A B]. unfold al_target. split; [nra|]. intros G. rewrite (B G). ring.
Qed.
Theorem pal_spec : forall alpha t_q qs nqs a, 0 <= alpha -> (a < length qs)%nat -> (a < length nqs)%nat ->
  al_target alpha t_q qs a <= pal_target alpha t_q qs nqs a <= t_q /\ (is_greedy a qs \/ is_greedy a nqs -> pal_target alpha t_q qs nqs a = t_q).
Proof.
  intros alpha t_q qs nqs a Ha L L'. destruct (advantage_le qs a L) as [A B]. destruct (advantage_le nqs a L') as [A' B'].
  unfold al_target, pal_target. pose proof (Rmax_l (q_advantage qs a) (q_advantage nqs a)) as M.
  assert (M0 : Rmax (q_advantage qs a) (q_advantage nqs a) <= 0) by (apply Rmax_lub; assumption).
  split; [split; nra|]. intros [G|G].
  - rewrite (B G) in *. rewrite Rmax_left by exact A'. ring.
  - rewrite (B' G) in *. rewrite Rmax_right by exact A. ring.
Qed.

(** ** Losses *)
Lemma zipr_len : forall f a b, length a = length b -> length (zipr f a b) = length a.
Proof. induction a as [|x a IH]; intros [|y b] H; cbn in *; try lia. rewrite IH; lia. Qed.
Lemma weighted_sum : forall f y t w, fsum (zipr Rmult (zipr f y t) w) = total_of (fun z => f (fst (fst z)) (snd (fst z)) * snd z) (combine (combine y t) w).
Proof.
  induction y as [|a y IH]; intros [|b t] [|c w]; try reflexivity. cbn [zipr combine]. rewrite tot_cons, <- IH. reflexivity.
Qed.
Theorem weighted_loss : forall clip acc y t w, compute_weighted_value_loss y t w clip acc =
  total_of (fun z => row_loss clip (fst (fst z)) (snd (fst z)) * snd z) (combine (combine y t) w) / (match acc with Mean => INR (length y) | Sum => 1 end).
Proof. intros. unfold compute_weighted_value_loss. rewrite weighted_sum. destruct acc; [reflexivity|]. field. Qed.
Lemma combine_ones : forall X (l : list X), combine l (repeat 1 (length l)) = map (fun x => (x, 1)) l.
Proof. induction l as [|x l IH]; [reflexivity|]. cbn. rewrite IH. reflexivity. Qed.
Theorem unit_weights : forall clip acc y t, length y = length t -> y <> [] ->
  compute_value_loss y t clip acc = compute_weighted_value_loss y t (repeat 1 (length y)) clip acc.
Proof.
  intros clip acc y t L NE. rewrite weighted_loss.
  replace (length y) with (length (combine y t)) at 1 by (rewrite combine_length; lia). rewrite combine_ones, tot_map. cbn [fst snd].
  pose proof (len_pos y NE) as N. unfold compute_value_loss. rewrite !zipr_total. destruct clip.
  - rewrite (tot_ext _ (fun z => row_loss true (fst z) (snd z) * 1) (combine y t)) by (intros; unfold row_loss; ring).
    destruct acc; [reflexivity|]. field.
  - rewrite (tot_ext (fun z => row_loss false (fst z) (snd z) * 1) (fun z => / 2 * (fst z - snd z) ^ 2) (combine y t)) by (intros; unfold row_loss; field).
    rewrite tot_scale. destruct acc; field; lra.
Qed.
Theorem sum_is_n_mean : forall clip y t w, y <> [] ->
  compute_weighted_value_loss y t w clip Sum = INR (length y) * compute_weighted_value_loss y t w clip Mean.
Proof. intros clip y t w NE. unfold compute_weighted_value_loss. pose proof (len_pos y NE). field. lra. Qed.

Lemma huber_eq : forall kappa y t, 0 <= kappa -> huber kappa y t = huber_of kappa (Rabs (y - t)).
Proof. intros. unfold huber, huber_of. destruct (Rle_dec _ _); field. Qed.
Lemma huber_nonneg : forall kappa d, 0 <= kappa -> 0 <= d -> 0 <= huber_of kappa d.
Proof. intros kappa d K D. unfold huber_of. destruct (Rle_dec d kappa); [nra|]. assert (kappa < d) by lra. nra. Qed.
Theorem huber_bounds : forall y t, 0 <= huber 1 y t <= (y - t) ^ 2 / 2 /\ huber 1 y t <= Rabs (y - t) /\ (huber 1 y t = 0 <-> y = t).
Proof.
  intros y t. rewrite huber_eq by lra. pose proof (Rabs_pos (y - t)) as P. assert (S : (y - t) ^ 2 = Rabs (y - t) ^ 2).
  { rewrite RPow_abs. symmetry. apply Rabs_pos_eq, pow2_ge_0. }
  rewrite S. split; [split; [apply huber_nonneg; lra|]|].
  - unfold huber_of. destruct (Rle_dec (Rabs (y - t)) 1); [lra|]. pose proof (pow2_ge_0 (Rabs (y - t) - 1)). nra.
  - split; [unfold huber_of; destruct (Rle_dec (Rabs (y - t)) 1); nra|]. split.
    + intros E. assert (Z : Rabs (y - t) = 0).
      { unfold huber_of in E. destruct (Rle_dec (Rabs (y - t)) 1) as [|N]; [|lra]. destruct (Req_dec (Rabs (y - t)) 0) as [|N]; [assumption|]. pose proof (pow_nonzero _ 2 N). lra. }
      destruct (Req_dec (y - t) 0) as [|N]; [lra|]. apply Rabs_no_R0 in N. contradiction.
    + intros ->. replace (t - t) with 0 by ring. rewrite Rabs_R0. unfold huber_of. destruct (Rle_dec 0 1); lra.
Qed.

Theorem quantile_mirrored : forall kappa tau y t, 0 <= kappa -> 0 <= tau <= 1 ->
  quantile_loss kappa tau y t = quantile_regression (huber_of kappa) (1 - tau) y t.
Proof.
  intros kappa tau y t K [T0 T1]. unfold quantile_loss, quantile_regression. rewrite huber_eq by exact K.
  destruct (Rlt_dec 0 (t - y)) as [H|H], (Rlt_dec y t) as [H'|H']; try lra.
  - rewrite (Rabs_minus_sym y t), (Rabs_pos_eq (t - y)) by lra. rewrite Rabs_left1 by lra. ring.
  - rewrite (Rabs_pos_eq (y - t)) by lra. rewrite Rabs_pos_eq by lra. ring.
Qed.

(** ** Dynamic policy programming *)
Lemma dpp_operators : forall qs eta, qs <> [] ->
  l_operator (DPP eta) qs * total_of (fun q => exp (eta * q)) qs = total_of (fun q => exp (eta * q) * q) qs /\
  (eta <> 0 -> exp (eta * l_operator (DPPL eta) qs) = total_of (fun q => exp (eta * q)) qs) /\
  is_maximum (l_operator DPPGreedy qs) qs.
Proof.
  intros qs eta NE. pose proof (exp_total_pos eta qs NE) as P. split; [|split].
  - unfold l_operator, q_expectation, softmax. rewrite map_map, fsum_map, tot_map.
    assert (E : forall c l, fsum (zipr Rmult (map (fun q => exp (eta * q) / c) l) l) = / c * total_of (fun q => exp (eta * q) * q) l).
    { intros c. induction l as [|q l IH]; [cbn; ring|]. cbn [map zipr fsum fold_right]. rewrite tot_cons. fold (fsum (zipr Rmult (map (fun q => exp (eta * q) / c) l) l)).
      rewrite IH. unfold Rdiv. ring. }
    rewrite E. field. lra.
  - intros H. unfold l_operator. rewrite lse_total. replace (eta * (ln (total_of (fun q => exp (eta * q)) qs) / eta)) with (ln (total_of (fun q => exp (eta * q)) qs)) by (field; exact H).
    apply exp_ln, P.
  - apply maximum_spec, NE.
Qed.
Lemma dpp_gaps : forall k t_q qs a b, dpp_value k t_q qs a - dpp_value k t_q qs b = q_evaluate qs a - q_evaluate qs b.
Proof. intros. unfold dpp_value. ring. Qed.
Lemma dpp_greedy_is_al : forall t_q qs a, dpp_value DPPGreedy t_q qs a = al_target 1 t_q qs a.
Proof. intros. unfold dpp_value, al_target, q_advantage, l_operator. ring. Qed.
